(** The non-preemptive scheduler: property C31. *)
From Verif Require Import Base SchedSpec SchedNP SchedNPProofs.
Open Scope nat_scope.

(** ** Executing a list of steps (for the examples and the refutation). *)
Section Run.
Variables (n top : nat) (lvl : reaction -> nat) (size : nat -> nat) (rs : list reaction).
Definition mem (r : reaction) (l : list reaction) : bool := existsb (Nat.eqb r) l.
Definition allowedb (s : sched) (o : op) : bool :=
  match o with
  | Triggers w r => match pcs s w with Running q => (lvl q <? lvl r) && mem r rs | _ => true end
  | Tag _ _ ts => forallb (fun r => mem r rs) ts
  | _ => true
  end.
Fixpoint run (s : sched) (l : list op) : option (sched * list event) :=
  match l with
  | [] => Some (s, [])
  | o :: l => if allowedb s o then
                match step n top lvl size s o with
                | Next s es => match run s l with Some (s', es') => Some (s', es ++ es') | None => None end
                | _ => None
                end
              else None
  end.
Lemma mem_in r l : mem r l = true -> In r l.
Proof. intros H. apply existsb_exists in H. destruct H as (x & Hx & E). apply Nat.eqb_eq in E. now subst. Qed.
Lemma allowedb_ok s o : allowedb s o = true -> allowed lvl rs s o.
Proof.
  destruct o as [w|w r|w|w b ts]; cbn; auto.
  - destruct (pcs s w); auto. intros H. apply andb_prop in H as (A & B). split; [now apply Nat.ltb_lt|now apply mem_in].
  - intros H r Hr. rewrite forallb_forall in H. now apply mem_in, H.
Qed.
Lemma run_exec s0 l : forall s es s' es', exec n top lvl size rs s0 s es -> run s l = Some (s', es') -> exec n top lvl size rs s0 s' (es ++ es').
Proof.
  induction l as [|o l IH]; intros s es s' es' X E; cbn [run] in E; [injection E as <- <-; now rewrite app_nil_r|].
  destruct (allowedb s o) eqn:A; [|discriminate]. destruct (step n top lvl size s o) as [s1 es1| | |] eqn:S1; try discriminate.
  destruct (run s1 l) as [[s2 es2]|] eqn:R; [|discriminate]. injection E as <- <-. rewrite app_assoc. eapply IH; [|exact R]. eapply (exec_step _ _ _ _ _ _ s es o); [exact X|now apply allowedb_ok|exact S1].
Qed.
End Run.

Section Props.
Variables (n top : nat) (lvl : reaction -> nat) (rs : list reaction).
Hypothesis P : program_ok n top lvl rs.
Lemma sizes_pos l : l <= top -> 0 < reactions_at lvl rs l.
Proof.
  intros H. destruct (p_levels _ _ _ _ P l H) as (r & Hr & E). unfold reactions_at. assert (In r (filter (fun r => lvl r =? l) rs)) as I. { apply filter_In. split; [exact Hr|]. apply Nat.eqb_eq; exact E. }
  destruct (filter _ rs); [destruct I|cbn; lia].
Qed.
Notation size := (reactions_at lvl rs).
Lemma start ts : incl ts rs -> exists s0, init top lvl size ts = Some s0 /\ inv n top lvl size rs s0 (observed0 lvl ts).
Proof. apply init_inv; [apply (p_workers _ _ _ _ P)|apply (p_top _ _ _ _ P)|reflexivity|exact sizes_pos]. Qed.
End Props.

(** C31: whatever the number of workers and the interleaving, every triggered
    reaction is taken exactly once before its level is left, reactions run level
    by level (the automaton of SchedSpec.v accepts the execution). *)
Theorem C31_schedule n top lvl rs ts : program_ok n top lvl rs -> incl ts rs ->
  exists s0, init top lvl (reactions_at lvl rs) ts = Some s0 /\
    forall s es, exec n top lvl (reactions_at lvl rs) rs s0 s es -> accepts n top lvl (observed0 lvl ts) es <> None.
Proof.
  intros P Inc. destruct (start n top lvl rs P ts Inc) as (s0 & E & I). exists s0. split; [exact E|]. intros s es X.
  destruct (exec_ok n top lvl (reactions_at lvl rs) rs (p_workers _ _ _ _ P) (p_top _ _ _ _ P) (fun _ => eq_refl) (sizes_pos n top lvl rs P) s0 _ s es I X) as (o & -> & _). discriminate.
Qed.

(** No access is out of bounds and no status is unexpected. *)
Theorem C31_defined n top lvl rs ts s0 s es o : program_ok n top lvl rs -> incl ts rs ->
  init top lvl (reactions_at lvl rs) ts = Some s0 -> exec n top lvl (reactions_at lvl rs) rs s0 s es -> allowed lvl rs s o ->
  step n top lvl (reactions_at lvl rs) s o <> OutOfBounds /\ step n top lvl (reactions_at lvl rs) s o <> ErrorExit.
Proof.
  intros P Inc E X A. destruct (start n top lvl rs P ts Inc) as (s0' & E' & I). rewrite E in E'. injection E' as <-.
  pose proof (exec_defined n top lvl (reactions_at lvl rs) rs (p_workers _ _ _ _ P) (p_top _ _ _ _ P) (fun _ => eq_refl) (sizes_pos n top lvl rs P) s0 _ s es o I X A) as K.
  destruct (step _ _ _ _ _ _); split; try discriminate; destruct K.
Qed.

(** Reactions that execute at one time have the same level. *)
Theorem C31_same_level n top lvl rs ts s0 s es w v q r : program_ok n top lvl rs -> incl ts rs ->
  init top lvl (reactions_at lvl rs) ts = Some s0 -> exec n top lvl (reactions_at lvl rs) rs s0 s es ->
  pcs s w = Running q -> pcs s v = Running r -> lvl q = lvl r /\ (q = r -> w = v).
Proof.
  intros P Inc E X Q R. destruct (start n top lvl rs P ts Inc) as (s0' & E' & I). rewrite E in E'. injection E' as <-.
  destruct (exec_ok n top lvl (reactions_at lvl rs) rs (p_workers _ _ _ _ P) (p_top _ _ _ _ P) (fun _ => eq_refl) (sizes_pos n top lvl rs P) s0 _ s es I X) as (o & _ & [J|T]).
  - destruct (i_run _ _ _ _ _ _ _ J _ _ Q) as (_ & _ & A & _). destruct (i_run _ _ _ _ _ _ _ J _ _ R) as (_ & _ & B & _). split; [congruence|].
    intros ->. eapply i_run2; eassumption.
  - destruct (t_pcs _ _ T w) as [H|[H|H]]; congruence.
Qed.

(** The workers are never all stuck: until all have ended, one can go on. *)
Theorem C31_no_deadlock n top lvl rs ts s0 s es : program_ok n top lvl rs -> incl ts rs ->
  init top lvl (reactions_at lvl rs) ts = Some s0 -> exec n top lvl (reactions_at lvl rs) rs s0 s es ->
  (forall w, w < n -> pcs s w = Ended) \/
  exists o s' es', allowed lvl rs s o /\ step n top lvl (reactions_at lvl rs) s o = Next s' es'.
Proof.
  intros P Inc E X. destruct (start n top lvl rs P ts Inc) as (s0' & E' & I). rewrite E in E'. injection E' as <-.
  exact (exec_live n top lvl (reactions_at lvl rs) rs (p_workers _ _ _ _ P) (p_top _ _ _ _ P) (fun _ => eq_refl) (sizes_pos n top lvl rs P) s0 _ s es I X).
Qed.

(** Two workers, reactions 0 and 1 of level 0, 2 of level 1: both run at once,
    trigger 2 twice, and it is executed once. *)
Definition lvl_ex (r : reaction) : nat := r / 2.
Lemma program_ex : program_ok 2 1 lvl_ex [0; 1; 2].
Proof.
  split; [lia| | |].
  - repeat constructor; cbn; lia.
  - intros r [<-|[<-|[<-|[]]]]; cbv; lia.
  - intros l H. destruct l as [|[|l]]; [exists 0|exists 2|lia]; cbn; auto.
Qed.
Example C31_ex : match init 1 lvl_ex (reactions_at lvl_ex [0; 1; 2]) [0; 1] with
  | Some s => match run 2 1 lvl_ex (reactions_at lvl_ex [0; 1; 2]) [0; 1; 2] s
                      [Step 0; Step 1; Triggers 0 2; Triggers 1 2; Ends 1; Ends 0; Step 1; Step 0; Step 1; Step 0; Step 0;
                       Step 0; Ends 0; Step 0; Step 0; Tag 0 true []; Step 0; Step 1; Step 1] with
              | Some (s, es) => pcs s 0 = Ended /\ pcs s 1 = Ended /\
                  es = [Take 0 1; Take 1 0; Trigger 0 2; Trigger 1 2; Done 1; Done 0; NextLevel; Take 0 2; Done 0]
              | None => False
              end
  | None => False
  end.
Proof. vm_compute. auto. Qed.

(** Finding: a level without reactions makes the scheduler read the first element
    of an array without elements (scheduler_NP.c:114; the array is allocated on
    line 271 with the number of reactions of the level). *)
Theorem C31_empty_level_refuted : exists n top lvl rs ts s0 s es o,
  1 <= n /\ NoDup rs /\ (forall r, In r rs -> lvl r <= top) /\ incl ts rs /\
  init top lvl (reactions_at lvl rs) ts = Some s0 /\ exec n top lvl (reactions_at lvl rs) rs s0 s es /\ allowed lvl rs s o /\
  step n top lvl (reactions_at lvl rs) s o = OutOfBounds.
Proof.
  set (lv := fun r : reaction => r * 2). set (rs := [0; 1]).
  assert (K : match init 2 lv (reactions_at lv rs) [0] with
              | Some s0 => match run 1 2 lv (reactions_at lv rs) rs s0 [Step 0; Ends 0; Step 0; Step 0] with
                           | Some (s, _) => match step 1 2 lv (reactions_at lv rs) s (Step 0) with OutOfBounds => True | _ => False end
                           | None => False end
              | None => False end) by (vm_compute; exact I).
  destruct (init 2 lv (reactions_at lv rs) [0]) as [s0|] eqn:E0; [|destruct K].
  destruct (run 1 2 lv (reactions_at lv rs) rs s0 [Step 0; Ends 0; Step 0; Step 0]) as [[s es]|] eqn:R; [|destruct K].
  assert (O : step 1 2 lv (reactions_at lv rs) s (Step 0) = OutOfBounds) by (destruct (step _ _ _ _ _ _); try (destruct K); reflexivity).
  exists 1, 2, lv, rs, [0], s0, s, es, (Step 0).
  split; [lia|]. split; [repeat constructor; cbn; lia|]. split; [intros r [<-|[<-|[]]]; cbv; lia|]. split; [intros x [<-|[]]; now left|].
  split; [exact E0|]. split; [|split; [exact I|exact O]]. change es with ([] ++ es). eapply run_exec; [apply exec_start|exact R].
Qed.

Print Assumptions C31_schedule.
Print Assumptions C31_defined.
Print Assumptions C31_same_level.
Print Assumptions C31_no_deadlock.
Print Assumptions C31_empty_level_refuted.
