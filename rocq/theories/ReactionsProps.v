(** C26: the reactions of one tag. *)
From Coq Require Import List Arith Bool ZArith Relations Permutation Lia.
From Verif Require Import Pqueue Reactions ReactionsSpec ReactionsProofs.
Import ListNotations.
Open Scope nat_scope.

(** ** C26.  Whatever the bodies do and however the heap breaks ties: a reaction runs at most once, and
    it runs exactly if it was triggered (by an event or by a present output of a reaction that ran). *)
Theorem C26_exactly_once : forall P pick beh init fuel s, picks_least P pick -> leveled P -> last_ok P init ->
  drain fuel P pick beh (at_start init) = Some s ->
  NoDup (rs_hist s) /\ (forall d, In d (rs_hist s) <-> triggered P beh init (rs_hist s) d) /\ rs_q s = [].
Proof.
  intros P pick beh init fuel s Hp Hl Hd H. destruct (start_ok P beh init) as (W & C & _). destruct (drain_ok _ _ _ _ Hp Hl Hd _ _ _ H W C) as (W1 & C1 & Eq & _).
  split; [apply (wf_hist _ _ _ _ W1)|]. split; [|exact Eq]. intros d. split; intros K.
  - apply in_split in K. destruct K as (a & b & E). pose proof (wf_caus _ _ _ _ W1 _ _ _ E) as T. rewrite E. apply trig_ext, T.
  - destruct (C1 d K) as [Q|Q]; [rewrite Eq in Q; destruct Q|exact Q].
Qed.
Print Assumptions C26_exactly_once.

(** The cause of a run comes before it. *)
Theorem C26_triggered_before : forall P pick beh init fuel s a d b, picks_least P pick -> leveled P -> last_ok P init ->
  drain fuel P pick beh (at_start init) = Some s -> rs_hist s = a ++ d :: b -> triggered P beh init a d.
Proof.
  intros P pick beh init fuel s a d b Hp Hl Hd H E. destruct (start_ok P beh init) as (W & C & _). destruct (drain_ok _ _ _ _ Hp Hl Hd _ _ _ H W C) as (W1 & _). eapply (wf_caus _ _ _ _ W1), E.
Qed.
Print Assumptions C26_triggered_before.

(** No reaction runs before one that is upstream of it. *)
Theorem C26_precedence : forall P pick beh init fuel s a x b y, picks_least P pick -> leveled P -> last_ok P init ->
  drain fuel P pick beh (at_start init) = Some s -> rs_hist s = a ++ x :: b -> In y b -> ~ upstream P y x.
Proof.
  intros P pick beh init fuel s a x b y Hp Hl Hd H E Hy. destruct (start_ok P beh init) as (W & C & _). destruct (drain_ok _ _ _ _ Hp Hl Hd _ _ _ H W C) as (W1 & _). eapply (wf_prec _ _ _ _ W1); eassumption.
Qed.
Print Assumptions C26_precedence.

(** Without immediately executed reactions, they run in the order of their indices. *)
Theorem C26_level_order : forall P pick beh init fuel s a x b y, picks_least P pick -> leveled P -> (forall d, rp_last P d = None) ->
  drain fuel P pick beh (at_start init) = Some s -> rs_hist s = a ++ x :: b -> In y b -> (rp_index P x <= rp_index P y)%Z.
Proof.
  intros P pick beh init fuel s a x b y Hp Hl Hn H E Hy. destruct (start_ok P beh init) as (W & C & Hh & _).
  assert (Hd : last_ok P init) by (intros d r K; rewrite Hn in K; discriminate).
  assert (L0 : lv P (at_start init)) by (split; rewrite Hh; [intros a0 x0 b0 y0 E0; destruct a0; discriminate|intros x0 e _ []]).
  destruct (drain_lv _ _ _ _ Hp Hl Hd Hn _ _ _ H W C L0) as (L & _). eapply L; eassumption.
Qed.
Print Assumptions C26_level_order.

(** The step terminates: a program with [N] reactions needs no more than [N+1] rounds. *)
Theorem C26_terminates : forall P pick beh init N, picks_least P pick -> leveled P -> last_ok P init ->
  (forall d, In d init -> d < N) -> (forall r d, edge P r d -> d < N) -> drain (S N) P pick beh (at_start init) <> None.
Proof.
  intros P pick beh init N Hp Hl Hd Hi Hb. destruct (start_ok P beh init) as (W & C & Hh & _). eapply drain_some; try eassumption. rewrite Hh. cbn. lia.
Qed.
Print Assumptions C26_terminates.

(** *** Examples.  A picker that satisfies the hypothesis. *)
Fixpoint take_least (P : rprog) (r : nat) (l : list nat) : nat * list nat :=
  match l with
  | [] => (r, [])
  | x :: l' => if (rp_index P x <? rp_index P r)%Z then let (m, q) := take_least P x l' in (m, r :: q) else let (m, q) := take_least P r l' in (m, x :: q)
  end.
Definition pick_least (P : rprog) : picker := fun q => match q with [] => None | r :: l => Some (take_least P r l) end.
Lemma take_least_spec P : forall l r, let (m, q) := take_least P r l in Permutation (r :: l) (m :: q) /\ forall x, In x (r :: l) -> (rp_index P m <= rp_index P x)%Z.
Proof.
  induction l as [|y l IH]; intros r; cbn [take_least]; [split; [reflexivity|intros x [<-|[]]; lia]|]. destruct (_ <? _)%Z eqn:E.
  - apply Z.ltb_lt in E. specialize (IH y). destruct (take_least P y l) as [m q]. destruct IH as (A & B). split.
    + rewrite A. apply perm_swap.
    + intros x [<-|Hx]; [specialize (B y (or_introl eq_refl)); lia|apply B, Hx].
  - apply Z.ltb_ge in E. specialize (IH r). destruct (take_least P r l) as [m q]. destruct IH as (A & B). split.
    + rewrite perm_swap, A. apply perm_swap.
    + intros x [<-|[<-|Hx]]; [apply B; left; reflexivity|specialize (B r (or_introl eq_refl)); lia|apply B; right; exact Hx].
Qed.
Lemma pick_least_ok P : picks_least P (pick_least P).
Proof.
  split; [reflexivity|]. intros [|r l] H; [congruence|]. pose proof (take_least_spec P l r) as K. cbn. destruct (take_least P r l) as [m q]. exists m, q. split; [reflexivity|exact K].
Qed.
Definition ids (r : nat) : Z := Z.of_nat r.
Lemma few_edges (P : rprog) : (forall r d, In d (concat (rp_down P r)) -> (rp_index P r < rp_index P d)%Z) -> leveled P.
Proof. intros H r d (l & A & B). apply H. apply in_concat. eauto. Qed.

(** Reactions 0 to 4; 0 triggers 1 and 2 through different outputs, both trigger 3, and 3 alone triggers 4, which runs immediately. *)
Definition ex_P : rprog := mkRP ids (fun r => match r with 0 => [[2]; [1]] | 1 => [[3]] | 2 => [[3]] | 3 => [[4; 4]] | _ => [] end) (fun d => if d =? 4 then Some 3 else None).
Definition ex_all : behaviour := fun _ _ _ => true.
Example C26_ex : picks_least ex_P (pick_least ex_P) /\ leveled ex_P /\ last_ok ex_P [0; 2] /\
  option_map rs_hist (drain 6 ex_P (pick_least ex_P) ex_all (at_start [0; 2])) = Some [0; 1; 2; 3; 4] /\
  option_map rs_hist (drain 6 ex_P (pick_least ex_P) (fun _ r i => negb (r =? 0)) (at_start [0; 2])) = Some [0; 2; 3; 4].
Proof.
  split; [apply pick_least_ok|]. split.
  - apply few_edges. intros [|[|[|[|r]]]] d; cbn; intuition (subst; cbn; lia).
  - split; [|vm_compute; auto]. intros d r. cbn [ex_P rp_last]. destruct (d =? 4) eqn:E; [|discriminate]. apply Nat.eqb_eq in E. subst d. intros H. injection H as <-. split; [cbn; lia|].
    intros [|[|[|[|u]]]] (l & A & B); cbn in A; intuition (subst; cbn in B; intuition (try discriminate)).
Qed.

(** With immediate execution the order of levels is not kept: here reaction 2 (upstream of nothing relevant, level 2)
    runs before reaction 1 (level 1), which was already queued. *)
Theorem C26_level_order_refuted : exists P init s a x b y, picks_least P (pick_least P) /\ leveled P /\ last_ok P init /\
  drain 5 P (pick_least P) ex_all (at_start init) = Some s /\ rs_hist s = a ++ x :: b /\ In y b /\ In y init /\ (rp_index P y < rp_index P x)%Z.
Proof.
  exists (mkRP ids (fun r => match r with 0 => [[2]] | _ => [] end) (fun d => if d =? 2 then Some 0 else None)), [0; 1].
  eexists _, [0], 2, [1], 1. split; [apply pick_least_ok|]. split.
  - apply few_edges. intros [|r] d; cbn; intuition (subst; cbn; lia).
  - split; [|vm_compute; intuition]. intros d r. cbn [rp_last]. destruct (d =? 2) eqn:E; [|discriminate]. apply Nat.eqb_eq in E. subst d. intros H. injection H as <-. split; [cbn; lia|].
    intros [|u] (l & A & B); cbn in A; [reflexivity|destruct A].
Qed.
Print Assumptions C26_level_order_refuted.

(** The code runs the candidate without looking at its status, so the promise of [last_ok] matters: if reaction 2 has
    last enabling reaction 1 but is also triggered by reaction 0 (itself upstream of 1), it runs twice. *)
Theorem C26_runs_twice_refuted : exists P init s, picks_least P (pick_least P) /\ leveled P /\
  (forall d r, rp_last P d = Some r -> ~ In d init /\ forall u, edge P u d -> u = r \/ upstream P u r) /\
  drain 5 P (pick_least P) ex_all (at_start init) = Some s /\ ~ NoDup (rs_hist s).
Proof.
  exists (mkRP ids (fun r => match r with 0 => [[2]; [1]] | 1 => [[2]] | _ => [] end) (fun d => if d =? 2 then Some 1 else None)), [0].
  eexists. split; [apply pick_least_ok|]. split.
  - apply few_edges. intros [|[|r]] d; cbn; intuition (subst; cbn; lia).
  - split; [|split; [vm_compute; reflexivity|]].
    + intros d r. cbn [rp_last]. destruct (d =? 2) eqn:E; [|discriminate]. apply Nat.eqb_eq in E. subst d. intros H. injection H as <-. split; [cbn; lia|].
      intros [|[|u]] (l & A & B); cbn in A; [|left; reflexivity|destruct A]. right. apply t_step. exists [1]. cbn. auto.
    + cbn. intros N. inversion N as [|x1 l1 N1 N2]; subst. inversion N2 as [|x2 l2 N3 N4]; subst. inversion N4 as [|x3 l3 N5 N6]; subst. apply N5. left; reflexivity.
Qed.
Print Assumptions C26_runs_twice_refuted.
