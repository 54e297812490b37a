(** The adaptive scheduler: property C59. *)
From Verif Require Import Base SchedSpec SchedAdaptive SchedAdaptiveProofs.
Open Scope nat_scope.

Lemma level_pos n top lvl rs l : program_ok n top lvl rs -> l <= top -> 0 < reactions_at lvl rs l.
Proof.
  intros P L. destruct (p_levels _ _ _ _ P l L) as (r & Hr & E). unfold reactions_at.
  assert (K : In r (filter (fun r => lvl r =? l) rs)) by (apply filter_In; split; [exact Hr|now apply Nat.eqb_eq]). destruct (filter _ rs); [destruct K|cbn; lia].
Qed.

(** C59: whatever the numbers of workers chosen for the levels (between one and the
    smaller of the numbers of workers and of reactions of the level, property C60),
    the assignment of reactions to workers, the thefts and the interleaving, the
    events are those of the common specification SchedSpec.v: a triggered reaction is
    taken by one worker, at its level, and the level is left only when it has been
    executed.  Condition variables are assumed not to wake up on their own, and
    assert() not to be compiled. *)
Theorem C59_schedule n top lvl rs hash ts s0 s es : program_ok n top lvl rs -> incl ts rs ->
  init n top lvl (reactions_at lvl rs) hash ts = Some s0 ->
  exec false n top lvl (reactions_at lvl rs) hash false rs s0 s es -> accepts n top lvl (observed0 lvl ts) es <> None.
Proof.
  intros P Inc I X. pose proof (p_workers _ _ _ _ P) as Hn. pose proof (p_top _ _ _ _ P) as Ht.
  assert (Hp : forall l, l <= top -> 0 < reactions_at lvl rs l) by (intros l; apply (level_pos n); exact P).
  destruct (init_inv n top lvl (reactions_at lvl rs) hash rs Hn Ht (fun l => eq_refl) Hp ts Inc) as (s1 & E & V). rewrite I in E. injection E as <-.
  destruct (exec_ok n top lvl (reactions_at lvl rs) hash rs Hn Ht (fun l => eq_refl) Hp s0 _ V s es X) as (o & -> & _). discriminate.
Qed.

(** No access is out of bounds, and no LF_ASSERT fails. *)
Theorem C59_defined n top lvl rs hash ts : program_ok n top lvl rs -> incl ts rs ->
  exists s0, init n top lvl (reactions_at lvl rs) hash ts = Some s0 /\
  forall s es e, exec false n top lvl (reactions_at lvl rs) hash false rs s0 s es -> allowed n top lvl (reactions_at lvl rs) false rs s e ->
    step false n top lvl (reactions_at lvl rs) hash s e <> OutOfBounds /\ step false n top lvl (reactions_at lvl rs) hash s e <> AssertFails.
Proof.
  intros P Inc. pose proof (p_workers _ _ _ _ P) as Hn. pose proof (p_top _ _ _ _ P) as Ht.
  assert (Hp : forall l, l <= top -> 0 < reactions_at lvl rs l) by (intros l; apply (level_pos n); exact P).
  destruct (init_inv n top lvl (reactions_at lvl rs) hash rs Hn Ht (fun l => eq_refl) Hp ts Inc) as (s0 & E & V). exists s0. split; [exact E|].
  intros s es e X A. exact (exec_defined n top lvl (reactions_at lvl rs) hash rs Hn Ht (fun l => eq_refl) Hp s0 _ V s es e X A).
Qed.

(** As long as a worker has not ended, some worker can go on. *)
Theorem C59_no_deadlock n top lvl rs hash ts s0 s es : program_ok n top lvl rs -> incl ts rs ->
  init n top lvl (reactions_at lvl rs) hash ts = Some s0 ->
  exec false n top lvl (reactions_at lvl rs) hash false rs s0 s es -> (exists w, w < n /\ pcs s w <> Ended) ->
  exists e s' es', allowed n top lvl (reactions_at lvl rs) false rs s e /\ step false n top lvl (reactions_at lvl rs) hash s e = Next s' es'.
Proof.
  intros P Inc I X (w & Hw & Nw). pose proof (p_workers _ _ _ _ P) as Hn. pose proof (p_top _ _ _ _ P) as Ht.
  assert (Hp : forall l, l <= top -> 0 < reactions_at lvl rs l) by (intros l; apply (level_pos n); exact P).
  destruct (init_inv n top lvl (reactions_at lvl rs) hash rs Hn Ht (fun l => eq_refl) Hp ts Inc) as (s1 & E & V). rewrite I in E. injection E as <-.
  destruct (exec_live n top lvl (reactions_at lvl rs) hash rs Hn Ht (fun l => eq_refl) Hp s0 _ V s es X) as [K|K]; [elim Nw; auto|exact K].
Qed.

(** ** Examples *)
Section Run.
Variables (debug : bool) (n top : nat) (lvl : reaction -> nat) (size : nat -> nat) (hash : reaction -> nat) (spurious : bool) (rs : list reaction).
Definition allowedb (s : sched) (o : op) : bool :=
  match o with
  | Triggers w r => match pcs s w with Running q => (lvl q <? lvl r) && existsb (Nat.eqb r) rs | _ => true end
  | Tag _ _ ts nums' => forallb (fun r => existsb (Nat.eqb r) rs) ts && forallb (fun l => (1 <=? nums' l) && (nums' l <=? Nat.min (size l) n)) (seq 0 (S top))
  | Spurious _ => spurious
  | _ => true
  end.
Fixpoint run (s : sched) (l : list op) : option (sched * list event) :=
  match l with
  | [] => Some (s, [])
  | o :: l => if allowedb s o then
                match step debug n top lvl size hash s o with
                | Next s es => match run s l with Some (s', es') => Some (s', es ++ es') | None => None end
                | _ => None
                end
              else None
  end.
Lemma inb_ok r : existsb (Nat.eqb r) rs = true -> In r rs.
Proof. intros H. apply existsb_exists in H. destruct H as (x & Hx & E). apply Nat.eqb_eq in E. now subst x. Qed.
Lemma allowedb_ok s o : allowedb s o = true -> allowed n top lvl size spurious rs s o.
Proof.
  destruct o as [w|w r|w|w b ts nums'|w]; cbn [allowedb allowed]; auto.
  - destruct (pcs s w); auto. intros H. apply andb_prop in H as (A & B). split; [now apply Nat.ltb_lt|now apply inb_ok].
  - intros H. apply andb_prop in H as (A & B). rewrite forallb_forall in A, B. split; [intros r Hr; now apply inb_ok, A|].
    intros l Hl. specialize (B l ltac:(apply in_seq; lia)). apply andb_prop in B as (B1 & B2). apply Nat.leb_le in B1. apply Nat.leb_le in B2. lia.
Qed.
Lemma run_exec s0 l : forall s es s' es', exec debug n top lvl size hash spurious rs s0 s es -> run s l = Some (s', es') -> exec debug n top lvl size hash spurious rs s0 s' (es ++ es').
Proof.
  induction l as [|o l IH]; intros s es s' es' X E; cbn [run] in E; [injection E as <- <-; now rewrite app_nil_r|].
  destruct (allowedb s o) eqn:A; [|discriminate]. destruct (step debug n top lvl size hash s o) as [s1 es1| | |] eqn:S1; try discriminate.
  destruct (run s1 l) as [[s2 es2]|] eqn:R; [|discriminate]. injection E as <- <-. rewrite app_assoc. eapply IH; [|exact R].
  eapply (exec_step _ _ _ _ _ _ _ _ _ s es o); [exact X|now apply allowedb_ok|exact S1].
Qed.
End Run.

(** Reaction 0 (level 0) triggers 1 and 2 (level 1). *)
Definition lvl_ex (r : reaction) : nat := if r =? 0 then 0 else 1.
Definition rs_ex : list reaction := [0; 1; 2].
Definition hash_ex (r : reaction) : nat := r - 1.
Lemma program_ex n : 1 <= n -> program_ok n 1 lvl_ex rs_ex.
Proof.
  intros H. split; [exact H|unfold rs_ex; repeat constructor; cbn; intuition discriminate| |].
  - intros r [<-|[<-|[<-|[]]]]; cbn; lia.
  - intros [|[|l]] L; [exists 0|exists 1|lia]; cbn; auto.
Qed.
Definition steps (l : list nat) : list op := map Step l.

(** Worker 1 steals the reaction of worker 0; both reactions of level 1 are executed;
    then the program ends. *)
Example C59_ex : match init 2 1 lvl_ex (reactions_at lvl_ex rs_ex) hash_ex [0] with
  | Some s0 =>
      match run false 2 1 lvl_ex (reactions_at lvl_ex rs_ex) hash_ex false rs_ex s0
        (steps [0; 0] ++ [Triggers 0 1; Triggers 0 2; Ends 0] ++ steps [1; 1; 1; 1; 1; 0; 0; 0; 0; 0; 0; 1; 1; 1] ++ [Ends 1] ++ steps [1; 1; 1; 1; 0; 0; 0; 0; 0; 0; 0]
         ++ [Ends 1] ++ steps [1; 1; 1; 1; 1; 1; 1] ++ [Tag 1 true [] (fun _ => 1); Step 0]) with
      | Some (s, es) => pcs s 0 = Ended /\ pcs s 1 = Ended /\
          es = [Take 0 0; Trigger 0 1; Trigger 0 2; Done 0; NextLevel; Take 1 2; Done 1; Take 1 1; Done 1]
      | None => False
      end
  | None => False
  end.
Proof. vm_compute. auto. Qed.

(** Finding: num_awakened counts the calling worker, which need not be among the
    first ones.  So a worker that is not woken up and is not counted may leave its
    loop at a spurious wake-up, and the level is left while a reaction is executing. *)
Theorem C59_spurious_refuted : exists n top lvl rs hash ts s0 s es, program_ok n top lvl rs /\ incl ts rs /\
  init n top lvl (reactions_at lvl rs) hash ts = Some s0 /\
  exec false n top lvl (reactions_at lvl rs) hash true rs s0 s es /\ accepts n top lvl (observed0 lvl ts) es = None.
Proof.
  set (ops := steps [0; 0] ++ [Triggers 0 1; Triggers 0 2; Ends 0] ++ steps [0; 0; 0; 0; 0; 1; 1; 1; 1; 1; 2; 2; 2; 2; 2; 3; 3; 3; 3; 3; 3] ++
    [Spurious 2] ++ steps [2; 2; 2; 2; 2; 2; 3; 3; 3; 3; 3; 0; 0; 0; 1; 1; 1] ++ [Ends 1] ++ steps [1; 1; 1; 1; 1; 1; 1] ++ [Tag 1 false [] (fun _ => 1)]).
  assert (T : match init 4 1 lvl_ex (reactions_at lvl_ex rs_ex) hash_ex [0] with
    | Some s0 => match run false 4 1 lvl_ex (reactions_at lvl_ex rs_ex) hash_ex true rs_ex s0 ops with
                 | Some (_, es) => match accepts 4 1 lvl_ex (observed0 lvl_ex [0]) es with None => true | _ => false end
                 | None => false end
    | None => false end = true) by (vm_compute; reflexivity).
  destruct (init 4 1 lvl_ex (reactions_at lvl_ex rs_ex) hash_ex [0]) as [s0|] eqn:I; [|discriminate].
  destruct (run false 4 1 lvl_ex (reactions_at lvl_ex rs_ex) hash_ex true rs_ex s0 ops) as [[s es]|] eqn:R; [|discriminate].
  exists 4, 1, lvl_ex, rs_ex, hash_ex, [0], s0, s, es. split; [apply program_ex; lia|]. split; [intros r [<-|[]]; now left|]. split; [exact I|].
  split; [change es with ([] ++ es); eapply run_exec; [apply exec_start|exact R]|]. destruct (accepts _ _ _ _ es); [discriminate|reflexivity].
Qed.

(** Finding: where assert() is compiled, line 246 fails when another worker has just
    tried to steal from this one and found nothing. *)
Theorem C59_assert_refuted : exists n top lvl rs hash ts s0 s es e, program_ok n top lvl rs /\ incl ts rs /\
  init n top lvl (reactions_at lvl rs) hash ts = Some s0 /\
  exec true n top lvl (reactions_at lvl rs) hash false rs s0 s es /\ allowed n top lvl (reactions_at lvl rs) false rs s e /\
  step true n top lvl (reactions_at lvl rs) hash s e = AssertFails.
Proof.
  set (lv := fun _ : reaction => 0). set (ops := steps [0; 0; 0; 0]).
  assert (T : match init 2 0 lv (reactions_at lv [0; 1]) hash_ex [] with
    | Some s0 => match run true 2 0 lv (reactions_at lv [0; 1]) hash_ex false [0; 1] s0 ops with
                 | Some (s, _) => match step true 2 0 lv (reactions_at lv [0; 1]) hash_ex s (Step 1) with AssertFails => true | _ => false end
                 | None => false end
    | None => false end = true) by (vm_compute; reflexivity).
  destruct (init 2 0 lv (reactions_at lv [0; 1]) hash_ex []) as [s0|] eqn:I; [|discriminate].
  destruct (run true 2 0 lv (reactions_at lv [0; 1]) hash_ex false [0; 1] s0 ops) as [[s es]|] eqn:R; [|discriminate].
  exists 2, 0, lv, [0; 1], hash_ex, [], s0, s, es, (Step 1). split.
  { split; [lia|repeat constructor; cbn; intuition discriminate|intros; unfold lv; lia|intros l L; exists 0; split; [now left|unfold lv; lia]]. }
  split; [intros r []|]. split; [exact I|]. split; [change es with ([] ++ es); eapply run_exec; [apply exec_start|exact R]|]. split; [exact Logic.I|].
  destruct (step true 2 0 lv (reactions_at lv [0; 1]) hash_ex s (Step 1)); congruence.
Qed.

Print Assumptions C59_schedule.
Print Assumptions C59_defined.
Print Assumptions C59_no_deadlock.
Print Assumptions C59_spurious_refuted.
Print Assumptions C59_assert_refuted.
