(** The results of a program do not depend on the scheduler: property C63. *)
From Verif Require Import Base SchedSpec Determinism DeterminismSpec DeterminismProofs DeterminismSched.
From Verif Require SchedNP SchedNPProps SchedGEDF SchedGEDFSpec SchedGEDFProps.
Open Scope nat_scope.

(** C63: two executions of one program that start with the same memory and the same triggered
    reactions.  Each is by any of the three schedulers of worker threads, with any number of
    workers, any interleaving of the workers, and any interleaving of their accesses to memory.
    At the end of each tag that both reach the same reactions have been executed, each once,
    and the memory is the same. *)
Theorem C63_determinism top lvl prog reads writes boundary rs ts ts' m0 m0' l l' m m' h h' :
  levelled_program lvl prog reads writes -> extensional boundary ->
  incl ts rs -> (forall r, In r ts <-> In r ts') -> (forall x, m0 x = m0' x) ->
  execution top lvl reads writes rs ts (scheduled l) -> play prog boundary (started m0) [] l = Some (m, h) ->
  execution top lvl reads writes rs ts' (scheduled l') -> play prog boundary (started m0') [] l' = Some (m', h') ->
  same_history h h'.
Proof.
  intros LP Ext Inc T M X P X' P'.
  apply (orderly_same lvl prog reads writes boundary LP Ext ts ts' m0 m0' l l' m m' h h' M T); auto.
  - apply (execution_orderly top lvl reads writes (lp_apart _ _ _ _ LP) rs ts _ Inc X).
  - apply (execution_orderly top lvl reads writes (lp_apart _ _ _ _ LP) rs ts'); [|exact X']. intros r Hr. apply Inc, T, Hr.
Qed.

(** ** Examples *)

(** Reactions 0 and 1 of level 0, 2 of level 1.  0 increments location 0, 1 writes location 1,
    2 adds both into location 2.  Every tag triggers 0 and 1. *)
Definition lvl_ex (r : reaction) : nat := r / 2.
Definition prog_ex (r : reaction) : body :=
  match r with
  | 0 => Read 0 (fun v => Write 0 (v + 1)%Z (Trig 2 Ret))
  | 1 => Write 1 5%Z (Trig 2 Ret)
  | 2 => Read 0 (fun a => Read 1 (fun b => Write 2 (a + b)%Z Ret))
  | _ => Ret
  end.
Definition reads_ex (r : reaction) (x : loc) : bool := match r with 0 => x =? 0 | 2 => x <? 2 | _ => false end.
Definition writes_ex (r : reaction) (x : loc) : bool := match r with 0 => x =? 0 | 1 => x =? 1 | 2 => x =? 2 | _ => false end.
Definition boundary_ex (m : memory) : list reaction * memory := ([0; 1], m).

Lemma program_ex : levelled_program lvl_ex prog_ex reads_ex writes_ex /\ extensional boundary_ex.
Proof.
  split; [split|].
  - intros [|[|[|r]]]; cbn [prog_ex]; repeat constructor; cbn; intros; try (left; reflexivity); repeat constructor; cbn; auto.
  - intros q r N L (x & C). destruct q as [|[|[|q]]], r as [|[|[|r]]]; try (now elim N); try discriminate L;
      destruct x as [|[|[|x]]]; cbn in C; decompose [and or] C; discriminate.
  - intros m m' E. split; [reflexivity|exact E].
Qed.

(** Two workers of the non-preemptive scheduler, whose accesses interleave. *)
Definition np_ex : list action :=
  [Sched (Take 0 1); Sched (Take 1 0); Access 1; Access 0; Access 1; Sched (Trigger 0 2); Sched (Trigger 1 2); Sched (Done 1); Sched (Done 0);
   Sched NextLevel; Sched (Take 0 2); Access 0; Access 0; Access 0; Sched (Done 0); Sched (NextTag [0; 1])].
(** One worker of the deadline scheduler. *)
Definition edf_ex : list action :=
  [Sched (Take 0 0); Access 0; Access 0; Sched (Trigger 0 2); Sched (Done 0); Sched (Take 0 1); Access 0; Sched (Trigger 0 2); Sched (Done 0);
   Sched (Take 0 2); Access 0; Access 0; Access 0; Sched (Done 0); Sched (NextTag [0; 1])].
Definition seen (h : list tag_result) : list (list reaction * list value) := map (fun a => (fst a, map (snd a) [0; 1; 2])) h.

Lemma np_execution : execution 1 lvl_ex reads_ex writes_ex [0; 1; 2] [0; 1] (scheduled np_ex).
Proof.
  pose proof SchedNPProps.program_ex as P. destruct (SchedNPProps.C31_schedule 2 1 lvl_ex [0; 1; 2] [0; 1] P) as (s0 & I & _); [intros r [<-|[<-|[]]]; cbn; auto|].
  assert (K : match SchedNP.init 1 lvl_ex (reactions_at lvl_ex [0; 1; 2]) [0; 1] with
    | Some s => match SchedNPProps.run 2 1 lvl_ex (reactions_at lvl_ex [0; 1; 2]) [0; 1; 2] s
                  (map SchedNP.Step [0; 1] ++ [SchedNP.Triggers 0 2; SchedNP.Triggers 1 2; SchedNP.Ends 1; SchedNP.Ends 0] ++ map SchedNP.Step [1; 0; 1; 0; 0; 0] ++
                   [SchedNP.Ends 0; SchedNP.Step 0; SchedNP.Step 0; SchedNP.Tag 0 false [0; 1]]) with
                | Some (_, es) => es = scheduled np_ex
                | None => False end
    | None => False end) by (vm_compute; reflexivity).
  rewrite I in K. destruct (SchedNPProps.run _ _ _ _ _ _ _) as [[s es]|] eqn:R; [|destruct K]. subst es.
  apply (by_NP _ _ _ _ _ _ 2 s0 s _ P I). change (scheduled np_ex) with ([] ++ scheduled np_ex). eapply SchedNPProps.run_exec; [apply SchedNP.exec_start|exact R].
Qed.
Lemma edf_execution : execution 1 lvl_ex reads_ex writes_ex [0; 1; 2] [1; 0] (scheduled edf_ex).
Proof.
  set (mb := fun q r : reaction => (q <? 2) && (r =? 2)).
  assert (P : program_ok 1 1 lvl_ex [0; 1; 2]).
  { split; [lia| | |].
    - repeat constructor; cbn; lia.
    - intros r [<-|[<-|[<-|[]]]]; cbv; lia.
    - intros l H. destruct l as [|[|l]]; [exists 0|exists 2|lia]; cbn; auto. }
  assert (K : match SchedGEDFProps.run 1 1 Z.of_nat lvl_ex mb (SchedGEDF.init [1; 0])
      [SchedGEDF.Lock 0; SchedGEDF.Loop 0 0; SchedGEDF.Triggers 0 2; SchedGEDF.Ends 0; SchedGEDF.Lock 0; SchedGEDF.Loop 0 1; SchedGEDF.Triggers 0 2; SchedGEDF.Ends 0;
       SchedGEDF.Lock 0; SchedGEDF.Loop 0 2; SchedGEDF.Loop 0 2; SchedGEDF.Ends 0; SchedGEDF.Lock 0; SchedGEDF.Loop 0 0; SchedGEDF.Tag 0 false [0; 1]] with
    | Some (_, es) => es = scheduled edf_ex
    | None => False end) by (vm_compute; reflexivity).
  destruct (SchedGEDFProps.run _ _ _ _ _ _ _) as [[s es]|] eqn:R; [|destruct K]. subst es.
  apply (by_GEDF _ _ _ _ _ _ 1 Z.of_nat (SchedGEDFProps.may_ex mb) s); [exact P| | | |].
  - intros q r H. apply andb_prop in H as (A & B). apply Nat.ltb_lt in A. apply Nat.eqb_eq in B as ->. destruct q as [|[|q]]; [cbv; lia|cbv; lia|lia].
  - intros q r H. apply andb_prop in H as (A & B). apply Nat.ltb_lt in A. apply Nat.eqb_eq in B as ->. lia.
  - intros q r _ L. destruct (Nat.lt_ge_cases q r) as [|G]; [lia|]. exfalso. apply (Nat.div_le_mono r q 2) in G; [|lia]. unfold lvl_ex in L. lia.
  - change (scheduled edf_ex) with ([] ++ scheduled edf_ex). eapply SchedGEDFProps.run_exec; [apply SchedGEDF.exec_start|exact R].
Qed.

(** Both meet the hypotheses of C63, and this is what is seen at the end of the tag. *)
Example C63_ex : exists m h m' h', incl [0; 1] [0; 1; 2] /\ (forall r, In r [0; 1] <-> In r [1; 0]) /\
  execution 1 lvl_ex reads_ex writes_ex [0; 1; 2] [0; 1] (scheduled np_ex) /\ play prog_ex boundary_ex (started (fun _ => 0%Z)) [] np_ex = Some (m, h) /\
  execution 1 lvl_ex reads_ex writes_ex [0; 1; 2] [1; 0] (scheduled edf_ex) /\ play prog_ex boundary_ex (started (fun _ => 0%Z)) [] edf_ex = Some (m', h') /\
  seen h = [([2; 0; 1], [1%Z; 5%Z; 6%Z])] /\ seen h' = [([2; 1; 0], [1%Z; 5%Z; 6%Z])].
Proof.
  assert (K : option_map (fun x => seen (snd x)) (play prog_ex boundary_ex (started (fun _ => 0%Z)) [] np_ex) = Some [([2; 0; 1], [1%Z; 5%Z; 6%Z])]) by now vm_compute.
  assert (K' : option_map (fun x => seen (snd x)) (play prog_ex boundary_ex (started (fun _ => 0%Z)) [] edf_ex) = Some [([2; 1; 0], [1%Z; 5%Z; 6%Z])]) by now vm_compute.
  destruct (play _ _ _ _ np_ex) as [[m h]|]; [|discriminate]. destruct (play _ _ _ _ edf_ex) as [[m' h']|]; [|discriminate].
  injection K as K. injection K' as K'. exists m, h, m', h'. split; [intros r [<-|[<-|[]]]; cbn; auto|]. split; [cbn; tauto|].
  split; [exact np_execution|]. split; [reflexivity|]. split; [exact edf_execution|]. split; [reflexivity|]. split; [exact K|exact K'].
Qed.

(** The condition about deadlines is needed: with the deadline scheduler the results may differ
    if a reaction has a later deadline than one of a higher level with which it shares state
    but which it does not trigger.  Nothing in the runtime checks this; the code generator has
    to see to it.  Reaction 0 has level 0, reaction 1 level 1, both write location 0. *)
Definition prog_cf (r : reaction) : body := Write 0 (Z.of_nat r) Ret.
Definition uses_cf (r : reaction) (x : loc) : bool := x =? 0.
Theorem C63_urgency_refuted : exists top lvl prog reads writes boundary rs ts m0 l l' m m' h h' n prio may s,
  levelled_program lvl prog reads writes /\ extensional boundary /\ incl ts rs /\
  execution top lvl reads writes rs ts (scheduled l) /\ play prog boundary (started m0) [] l = Some (m, h) /\
  program_ok n top lvl rs /\ SchedGEDFSpec.levelled top lvl may /\ SchedGEDFSpec.inherits prio may /\
  SchedGEDF.exec n top prio lvl may (SchedGEDF.init ts) s (scheduled l') /\ play prog boundary (started m0) [] l' = Some (m', h') /\
  ~ same_history h h'.
Proof.
  set (lv := fun r : reaction => r). set (bd := fun m : memory => ([0; 1], m)). set (pr := fun r : reaction => if r =? 0 then 10%Z else 5%Z). set (mb := fun q r : reaction => false).
  set (l := [Sched (Take 0 0); Access 0; Sched (Done 0); Sched NextLevel; Sched (Take 0 1); Access 0; Sched (Done 0); Sched (NextTag [0; 1])]).
  set (l' := [Sched (Take 0 1); Access 0; Sched (Done 0); Sched (Take 0 0); Access 0; Sched (Done 0); Sched (NextTag [0; 1])]).
  assert (P : program_ok 1 1 lv [0; 1]).
  { split; [lia| | |].
    - repeat constructor; cbn; lia.
    - intros r [<-|[<-|[]]]; cbv; lia.
    - intros k H. exists k. split; [|reflexivity]. destruct k as [|[|k]]; cbn; auto; lia. }
  assert (Inc : incl [0; 1] [0; 1]) by (intros r H; exact H).
  destruct (SchedNPProps.C31_schedule 1 1 lv [0; 1] [0; 1] P Inc) as (s0 & I0 & _).
  assert (K : match SchedNP.init 1 lv (reactions_at lv [0; 1]) [0; 1] with
    | Some s => match SchedNPProps.run 1 1 lv (reactions_at lv [0; 1]) [0; 1] s
                  [SchedNP.Step 0; SchedNP.Ends 0; SchedNP.Step 0; SchedNP.Step 0; SchedNP.Step 0; SchedNP.Step 0; SchedNP.Ends 0; SchedNP.Step 0; SchedNP.Step 0; SchedNP.Tag 0 false [0; 1]] with
                | Some (_, es) => es = scheduled l
                | None => False end
    | None => False end) by (vm_compute; reflexivity).
  rewrite I0 in K. destruct (SchedNPProps.run _ _ _ _ _ _ _) as [[s es]|] eqn:R; [|destruct K]. subst es.
  assert (K' : match SchedGEDFProps.run 1 1 pr lv mb (SchedGEDF.init [0; 1])
      [SchedGEDF.Lock 0; SchedGEDF.Loop 0 1; SchedGEDF.Loop 0 1; SchedGEDF.Ends 0; SchedGEDF.Lock 0; SchedGEDF.Loop 0 0; SchedGEDF.Loop 0 0; SchedGEDF.Ends 0;
       SchedGEDF.Lock 0; SchedGEDF.Loop 0 0; SchedGEDF.Tag 0 false [0; 1]] with
    | Some (_, es) => es = scheduled l'
    | None => False end) by (vm_compute; reflexivity).
  destruct (SchedGEDFProps.run _ _ _ _ _ _ _) as [[s' es]|] eqn:R'; [|destruct K']. subst es.
  assert (V : option_map (fun x => seen (snd x)) (play prog_cf bd (started (fun _ => 7%Z)) [] l) = Some [([1; 0], [1%Z; 7%Z; 7%Z])]) by now vm_compute.
  assert (V' : option_map (fun x => seen (snd x)) (play prog_cf bd (started (fun _ => 7%Z)) [] l') = Some [([0; 1], [0%Z; 7%Z; 7%Z])]) by now vm_compute.
  destruct (play prog_cf bd (started (fun _ => 7%Z)) [] l) as [[m h]|] eqn:Y; [|discriminate]. destruct (play prog_cf bd (started (fun _ => 7%Z)) [] l') as [[m' h']|] eqn:Y'; [|discriminate].
  injection V as V. injection V' as V'.
  exists 1, lv, prog_cf, uses_cf, uses_cf, bd, [0; 1], [0; 1], (fun _ => 7%Z), l, l', m, m', h, h', 1, pr, (SchedGEDFProps.may_ex mb), s'.
  split; [|split; [intros a b E; split; [reflexivity|exact E]|]].
  { split; [intros r; repeat constructor; reflexivity|]. intros q r N L. elim N. exact L. }
  split; [exact Inc|]. split.
  { apply (by_NP _ _ _ _ _ _ 1 s0 s _ P I0). change (scheduled l) with ([] ++ scheduled l). eapply SchedNPProps.run_exec; [apply SchedNP.exec_start|exact R]. }
  split; [exact Y|]. split; [exact P|]. split; [intros q r H; discriminate|]. split; [intros q r H; discriminate|]. split.
  { change (scheduled l') with ([] ++ scheduled l'). eapply SchedGEDFProps.run_exec; [apply SchedGEDF.exec_start|exact R']. }
  split; [exact Y'|]. intros SH. destruct h as [|a [|? h]]; try discriminate. destruct h' as [|b [|? h']]; try discriminate.
  destruct (SH 0 a b eq_refl eq_refl) as (_ & _ & _ & E). specialize (E 0). cbn in V, V'. injection V as _ V1 _ _. injection V' as _ V2 _ _. pose proof (eq_trans (eq_sym V1) (eq_trans E V2)) as Q. discriminate Q.
Qed.

Print Assumptions C63_determinism.
Print Assumptions C63_urgency_refuted.
