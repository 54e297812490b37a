(** The deadline scheduler: property C32. *)
From Verif Require Import Base SchedSpec SchedGEDF SchedGEDFSpec SchedGEDFProofs.
From Verif Require Deadline DeadlineSpec DeadlineProps.
From Coq Require Import Relation_Operators.
Open Scope nat_scope.

(** C32: whatever the number of workers, the deadlines and the interleaving, a
    taken reaction was triggered and not taken since, no pending reaction is more
    urgent, all reactions that execute have its level, and the tag is left only
    when every triggered reaction has been executed (SchedGEDFSpec.v). *)
Theorem C32_schedule n top prio lvl may ts s es : 1 <= n -> levelled top lvl may -> (forall r, In r ts -> lvl r <= top) ->
  exec n top prio lvl may (init ts) s es -> accepts_edf n prio lvl (edf0 ts) es <> None.
Proof. intros Hn M Ht X. destruct (exec_inv n top prio lvl may Hn M ts Ht s es X) as (o & -> & _). discriminate. Qed.

(** The status of a reaction is never unexpected. *)
Theorem C32_defined n top prio lvl may ts s es e : 1 <= n -> levelled top lvl may -> (forall r, In r ts -> lvl r <= top) ->
  exec n top prio lvl may (init ts) s es -> allowed top lvl may s e -> step n top prio lvl s e <> ErrorExit.
Proof. intros Hn M Ht. exact (exec_defined n top prio lvl may Hn M ts Ht s es e). Qed.

(** Not all workers ever sleep: until all have ended, one of them can go on
    without being woken up. *)
Theorem C32_no_deadlock n top prio lvl may ts s es : 1 <= n -> levelled top lvl may -> (forall r, In r ts -> lvl r <= top) ->
  exec n top prio lvl may (init ts) s es -> (exists w, w < n /\ pcs s w <> Ended) ->
  exists e s' es', (forall w, e <> Wake w) /\ allowed top lvl may s e /\ step n top prio lvl s e = Next s' es'.
Proof. intros Hn M Ht. exact (exec_live n top prio lvl may Hn M ts Ht s es). Qed.

(** If deadlines are inherited, no reaction is taken twice within one tag. *)
Theorem C32_once n top prio lvl may ts s es : 1 <= n -> levelled top lvl may -> (forall r, In r ts -> lvl r <= top) ->
  inherits prio may -> exec n top prio lvl may (init ts) s es -> NoDup (taken [] es).
Proof.
  intros Hn M Ht Inh X. destruct (exec_inv n top prio lvl may Hn M ts Ht s es X) as (o & A & _).
  exact (t_nodup _ _ _ _ (once_events n top prio lvl may Hn M ts Ht Inh s es X o A)).
Qed.

(** And none is taken after one that it triggers, directly or not ([taken] lists
    the latest first). *)
Theorem C32_precedence n top prio lvl may ts s es l x l' y : 1 <= n -> levelled top lvl may -> (forall r, In r ts -> lvl r <= top) ->
  inherits prio may -> exec n top prio lvl may (init ts) s es ->
  taken [] es = l ++ x :: l' -> In y l' -> ~ clos_trans _ may x y.
Proof.
  intros Hn M Ht Inh X T Y C. destruct (exec_inv n top prio lvl may Hn M ts Ht s es X) as (o & A & _).
  pose proof (t_order _ _ _ _ (once_events n top prio lvl may Hn M ts Ht Inh s es X o A)) as O. rewrite T in O.
  assert (K : after prio lvl x y). { clear - O Y. induction l as [|a l IH]; cbn in O; inversion O as [|? ? F G]; subst; [now apply (proj1 (Forall_forall _ _) F)|auto]. }
  assert (L : lvl x < lvl y /\ (prio x < prio y)%Z). { clear - C M Inh. induction C as [x y H|x y z _ IH1 _ IH2]; [split; [now apply M in H|now apply Inh]|lia]. }
  destruct K; lia.
Qed.

(** The index of a reaction, as computed by lf_combine_deadline_and_level, is
    inherited as soon as no reaction has a later deadline than one it triggers. *)
Theorem C32_inherits top lvl may (dl : reaction -> Z) : levelled top lvl may -> (Z.of_nat top < 65536)%Z ->
  (forall r, (0 <= dl r)%Z) -> (forall q r, may q r -> (dl q <= dl r)%Z) ->
  inherits (fun r => Deadline.combine_wrap (dl r) (Z.of_nat (lvl r))) may.
Proof.
  intros M T P D q r Q. pose proof (M q r Q) as L. pose proof (D q r Q) as E. pose proof (P q). pose proof (P r).
  apply (DeadlineProps.C33_order (dl q) (Z.of_nat (lvl q)) (dl r) (Z.of_nat (lvl r))); try lia. unfold DeadlineSpec.before, DeadlineSpec.capped. lia.
Qed.

(** ** Examples *)
Section Run.
Variables (n top : nat) (prio : reaction -> Z) (lvl : reaction -> nat) (mayb : reaction -> reaction -> bool).
Definition may_ex q r : Prop := mayb q r = true.
Definition allowedb (s : sched) (o : op) : bool :=
  match o with
  | Triggers w r => match pcs s w with Running q => mayb q r | _ => true end
  | Tag _ _ ts => forallb (fun r => lvl r <=? top) ts
  | _ => true
  end.
Fixpoint run (s : sched) (l : list op) : option (sched * list event) :=
  match l with
  | [] => Some (s, [])
  | o :: l => if allowedb s o then
                match step n top prio lvl s o with
                | Next s es => match run s l with Some (s', es') => Some (s', es ++ es') | None => None end
                | _ => None
                end
              else None
  end.
Lemma allowedb_ok s o : allowedb s o = true -> allowed top lvl may_ex s o.
Proof.
  destruct o as [w|w|w r|w r|w|w b ts]; cbn; auto.
  - destruct (pcs s w); auto.
  - intros H r Hr. rewrite forallb_forall in H. now apply Nat.leb_le, H.
Qed.
Lemma run_exec s0 l : forall s es s' es', exec n top prio lvl may_ex s0 s es -> run s l = Some (s', es') -> exec n top prio lvl may_ex s0 s' (es ++ es').
Proof.
  induction l as [|o l IH]; intros s es s' es' X E; cbn [run] in E; [injection E as <- <-; now rewrite app_nil_r|].
  destruct (allowedb s o) eqn:A; [|discriminate]. destruct (step n top prio lvl s o) as [s1 es1| |] eqn:S1; try discriminate.
  destruct (run s1 l) as [[s2 es2]|] eqn:R; [|discriminate]. injection E as <- <-. rewrite app_assoc. eapply IH; [|exact R]. eapply (exec_step _ _ _ _ _ _ s es o); [exact X|now apply allowedb_ok|exact S1].
Qed.
End Run.

(** Reaction 0 (level 0) triggers 1 (level 1); 2 (level 0) is the most urgent. *)
Definition lvl_ex (r : reaction) : nat := if r =? 1 then 1 else 0.
Definition prio_ex (r : reaction) : Z := if r =? 2 then 5 else Z.of_nat (10 + r).
Definition mayb_ex (q r : reaction) : bool := (q =? 0) && (r =? 1).
Lemma levelled_ex : levelled 1 lvl_ex (may_ex mayb_ex) /\ inherits prio_ex (may_ex mayb_ex).
Proof.
  split; intros q r H; unfold may_ex, mayb_ex in H; apply andb_prop in H as (A & B); apply Nat.eqb_eq in A as ->; apply Nat.eqb_eq in B as ->; cbn; lia.
Qed.
Example C32_ex : match run 2 1 prio_ex lvl_ex mayb_ex (init [0; 2])
    [Lock 0; Loop 0 2; Lock 1; Loop 1 0; Triggers 1 1; Ends 0; Lock 0; Loop 0 1; Ends 1; Lock 1; Loop 1 1; Loop 1 1; Ends 1; Lock 1; Loop 1 0;
     Tag 1 true []; Lock 0; Loop 0 0] with
  | Some (s, es) => pcs s 0 = Ended /\ pcs s 1 = Ended /\
      es = [Take 0 2; Take 1 0; Trigger 1 1; Done 0; Done 1; Take 1 1; Done 1] /\ taken [] es = [1; 0; 2]
  | None => False
  end.
Proof. vm_compute. auto. Qed.

(** Finding: without inheritance of deadlines the scheduler neither keeps the order
    of levels nor runs a reaction once per tag.  Reactions 0 (level 0), 1 (level 1)
    and 2 (level 2), where 0 and 1 may trigger 2: 2 is triggered by 1, is more
    urgent than 0 and is executed before 0 is; then 0 triggers it again. *)
Theorem C32_twice_refuted : exists n top prio lvl may ts s es,
  1 <= n /\ levelled top lvl may /\ (forall r, In r ts -> lvl r <= top) /\
  exec n top prio lvl may (init ts) s es /\ ~ NoDup (taken [] es) /\
  exists l x l' y, taken [] es = l ++ x :: l' /\ In y l' /\ may x y.
Proof.
  set (lv := fun r : reaction => r). set (pr := fun r : reaction => if r =? 0 then 100%Z else Z.of_nat r).
  set (mb := fun q r : reaction => (q <? 2) && (r =? 2)).
  set (ops := [Lock 0; Loop 0 1; Loop 0 1; Triggers 0 2; Ends 0; Lock 0; Loop 0 2; Loop 0 2; Ends 0; Lock 0; Loop 0 0; Loop 0 0; Triggers 0 2; Ends 0;
     Lock 0; Loop 0 2; Loop 0 2; Loop 0 2]).
  assert (T : match run 1 2 pr lv mb (init [0; 1]) ops with Some (_, es) => taken [] es | None => [] end = [2; 0; 2; 1]) by (vm_compute; reflexivity).
  destruct (run 1 2 pr lv mb (init [0; 1]) ops) as [[s es]|] eqn:R; [|discriminate]. exists 1, 2, pr, lv, (may_ex mb), [0; 1], s, es.
  split; [lia|]. split; [|split; [intros r [<-|[<-|[]]]; cbv; lia|]].
  { intros q r H. apply andb_prop in H as (A & B). apply Nat.ltb_lt in A. apply Nat.eqb_eq in B as ->. unfold lv. lia. }
  split; [change es with ([] ++ es); eapply run_exec; [apply exec_start|exact R]|]. rewrite T.
  split; [intros N; inversion N as [|? ? A _]; apply A; cbn; auto|]. exists [2], 0, [2; 1], 2. split; [reflexivity|]. split; [now left|]. reflexivity.
Qed.

Print Assumptions C32_schedule.
Print Assumptions C32_defined.
Print Assumptions C32_no_deadlock.
Print Assumptions C32_once.
Print Assumptions C32_precedence.
Print Assumptions C32_inherits.
Print Assumptions C32_twice_refuted.
