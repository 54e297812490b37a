(** Barriers on the advancement of tags: property C34. *)
From Verif Require Import Base Tag TagSpec TagProofs TagBarrier TagBarrierSpec TagBarrierProofs.

(** C34, first part.  In a federated program, whatever is interleaved with the thread
    that advances the tag, each advancement (to a proper time) is to a tag that all
    barriers held at that moment allow. *)
Theorem C34_respected start st e es : tag_ok start -> tag_ok st -> exec true (init start st) e es -> respected_but_forever es.
Proof. intros A B X. now apply (exec_inv start st e es). Qed.

(** C34, second part.  When no barrier is held, the horizon is lifted, and a thread that
    waits for the barrier has been woken up and does not go on waiting. *)
Theorem C34_lifted start st e es : tag_ok start -> tag_ok st -> exec true (init start st) e es -> held es = [] ->
  horizon e = FOREVER_TAG /\
  forall p b, thr e = Waiting p b -> b = true /\ exists e' es', step true e Wakes = Done e' es' /\ thr e' = Idle.
Proof.
  intros A B X H. destruct (exec_inv start st e es A B X) as (I & _). split; [now apply (i_none _ _ I)|]. intros p b Th.
  destruct (i_wait _ _ I p b Th) as (_ & W & _). assert (b = true) as -> by (destruct b; [reflexivity|elim (W eq_refl H)]). split; [reflexivity|].
  destruct (resume_good e _ p true I Th) as (e' & es' & R & _ & T). exists e', es'. cbn [step]. rewrite Th. split; [exact R|auto].
Qed.

(** Used like this, the barrier never ends the program with an error. *)
Theorem C34_defined start st e es o : tag_ok start -> tag_ok st -> exec true (init start st) e es -> allowed es e o -> step true e o <> Exits.
Proof.
  intros A B X Al E. destruct (exec_inv start st e es A B X) as (I & _). pose proof (step_good e (held es) o I) as G. rewrite E in G. apply G. destruct o; auto.
Qed.

(** ** Examples *)
Section Run.
Variable federated : bool.
Definition tag_eqb (a b : tag) : bool := (ttime a =? ttime b) && (tmicro a =? tmicro b).
Definition allowedb (es : list event) (e : env) (o : op) : bool :=
  match o with
  | Insert t => tag_okb t && (tag_compare (cur e) t <? 0)
  | SetStop t => tag_okb t
  | Raise _ f => tag_okb f
  | Release k => existsb (Nat.eqb k) (map fst (held es))
  | _ => true
  end.
Fixpoint run (e : env) (es : list event) (l : list op) : option (env * list event) :=
  match l with
  | [] => Some (e, es)
  | o :: l => if allowedb es e o then match step federated e o with Done e es' => run e (es ++ es') l | _ => None end else None
  end.
Lemma tag_okb_ok t : tag_okb t = true -> tag_ok t.
Proof. unfold tag_okb, tag_ok, in_int64b, in_int64, in_uint32b, in_uint32. intros H. apply andb_prop in H as (A & B). lia. Qed.
Lemma allowedb_ok es e o : allowedb es e o = true -> allowed es e o.
Proof.
  destruct o as [| | |k f|k|t|t]; cbn [allowedb allowed]; auto using tag_okb_ok.
  - intros H. apply existsb_exists in H. destruct H as (x & Hx & E). apply Nat.eqb_eq in E. now subst x.
  - intros H. apply andb_prop in H as (A & B). split; [now apply tag_okb_ok|now apply cmp_lt0].
Qed.
Lemma run_exec e0 l : forall e es e' es', exec federated e0 e es -> run e es l = Some (e', es') -> exec federated e0 e' es'.
Proof.
  induction l as [|o l IH]; intros e es e' es' X E; cbn [run] in E; [injection E as <- <-; exact X|].
  destruct (allowedb es e o) eqn:A; [|discriminate]. destruct (step federated e o) as [e1 es1| |] eqn:S1; try discriminate.
  eapply IH; [|exact E]. eapply (exec_step _ _ e es o); [exact X|now apply allowedb_ok|exact S1].
Qed.
End Run.

(** Two requestors; the thread waits until both have released their barriers. *)
Example C34_ex : exists e es, exec true (init (mkTag 100 0) FOREVER_TAG) e es /\
  es = [Raised 1 (mkTag 200 0) (mkTag 100 0); Advanced (mkTag 150 0); Raised 2 (mkTag 120 0) (mkTag 150 0); Released 2; Released 1; Advanced (mkTag 200 0)] /\
  thr e = Idle /\ horizon e = FOREVER_TAG.
Proof.
  eexists _, _. split; [eapply (run_exec true _ [Insert (mkTag 150 0); Insert (mkTag 300 0); Raise 1 (mkTag 200 0); Next; Raise 2 (mkTag 120 0); Next; Spurious; Release 2; Spurious; Insert (mkTag 200 0); Release 1; Wakes]); [apply exec_start|vm_compute; reflexivity]|].
  repeat split; reflexivity.
Qed.

(** Finding: the time FOREVER is not held back (line 151).  A thread without events and
    without a stop tag advances to it although a barrier is held. *)
Theorem C34_forever_refuted : exists start st e es, tag_ok start /\ tag_ok st /\ exec true (init start st) e es /\ ~ respected es.
Proof.
  exists (mkTag 100 0), FOREVER_TAG. eexists _, _. split; [now apply tag_okb_ok|]. split; [now apply tag_okb_ok|].
  split; [eapply (run_exec true _ [Raise 1 (mkTag 200 0); Next]); [apply exec_start|vm_compute; reflexivity]|]. cbv beta. intros R.
  specialize (R [Raised 1 (mkTag 200 0) (mkTag 100 0)] FOREVER_TAG [] eq_refl _ (or_introl eq_refl)). destruct R as (_ & R). unfold tag_lt, FOREVER_TAG, FOREVER, LLONG_MAX in R. cbn in R. lia.
Qed.

(** Finding: in a program that is not federated nothing waits for barriers, although
    lf_request_stop raises them in order to keep the environments from advancing. *)
Theorem C34_unfederated_refuted : exists start st e es, tag_ok start /\ tag_ok st /\ exec false (init start st) e es /\ ~ respected_but_forever es.
Proof.
  exists (mkTag 100 0), FOREVER_TAG. eexists _, _. split; [now apply tag_okb_ok|]. split; [now apply tag_okb_ok|].
  split; [eapply (run_exec false _ [Insert (mkTag 300 0); Raise 1 (mkTag 200 0); Next]); [apply exec_start|vm_compute; reflexivity]|]. cbv beta. intros R.
  specialize (R [Raised 1 (mkTag 200 0) (mkTag 100 0)] (mkTag 300 0) [] eq_refl ltac:(discriminate) _ (or_introl eq_refl)). destruct R as (_ & R). unfold tag_lt in R. cbn in R. lia.
Qed.

Print Assumptions C34_respected.
Print Assumptions C34_lifted.
Print Assumptions C34_defined.
Print Assumptions C34_forever_refuted.
Print Assumptions C34_unfederated_refuted.
