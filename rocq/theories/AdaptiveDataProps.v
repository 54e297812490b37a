(** The number of workers chosen by the adaptive scheduler: property C60. *)
From Verif Require Import Base SchedSpec AdaptiveData.
Open Scope nat_scope.

(** What is meant by a program whose levels all have work to do. *)
Definition levels_ok (n levels : nat) (size : nat -> nat) : Prop :=
  1 <= n /\ 1 <= levels /\ forall l, l < levels -> 1 <= size l.
(** The chosen number is within the limits of the level. *)
Definition in_range (n : nat) (size : nat -> nat) (k l : nat) : Prop := 1 <= k /\ k <= n /\ k <= size l.
(** The number is one of the prepared list (powers of two) or the limit of the level. *)
Definition power_or_limit (n : nat) (size : nat -> nat) (k l : nat) : Prop := (exists e, k = 2 ^ e) \/ k = Nat.min (size l) n.

Section Proofs.
Variables (n levels : nat) (size : nat -> nat).
Hypothesis P : levels_ok n levels size.

Definition fine (k l : nat) : Prop := in_range n size k l /\ power_or_limit n size k l.
Record inv (d : data) : Prop := {
  v_nums : forall l, l < levels -> fine (nums d l) l;
  v_arg : forall l, l < levels -> argmins d l = n \/ fine (argmins d l) l;
  v_cur : current d < levels;
  v_workers : 1 <= workers d <= n }.
Definition good (r : outcome data) : Prop :=
  match r with Done d => inv d | TimeOverflow => True | _ => False end.

Lemma arg_range d l : inv d -> l < levels -> 1 <= argmins d l <= n.
Proof. intros I H. destruct P as (? & _). destruct (v_arg _ I l H) as [->|((A & B & _) & _)]; lia. Qed.

Lemma prepared_nth i : i <= S (S (Nat.log2 n)) -> nth_error (prepared n) (S i) = Some (2 ^ i).
Proof.
  intros H. unfold prepared. cbn [nth_error]. rewrite nth_error_map. replace (nth_error (seq 0 (3 + Nat.log2 n)) i) with (Some i); [reflexivity|].
  symmetry. rewrite (nth_error_nth' _ 0) by (rewrite seq_length; lia). now rewrite seq_nth by lia.
Qed.

Lemma search_ok c : c <= n -> exists i, search (tl (prepared n)) 1 c = Done (S i) /\ i <= S (Nat.log2 n).
Proof.
  intros H. unfold prepared. cbn [tl].
  assert (K : forall m a, a <= S (Nat.log2 n) < a + m -> exists i, search (map (fun i => 2 ^ i) (seq a m)) (S a) c = Done (S i) /\ i <= S (Nat.log2 n)).
  { induction m as [|m IH]; intros a B; [lia|]. cbn [seq map search]. destruct (Nat.ltb_spec (2 ^ a) c) as [Lt|Le]; [|exists a; split; [reflexivity|lia]].
    apply IH. destruct (Nat.eq_dec a (S (Nat.log2 n))) as [->|]; [|lia]. exfalso. destruct P as (Hn & _). pose proof (Nat.log2_spec n Hn). lia. }
  apply K. lia.
Qed.

Lemma jitter_ok c e r : match jitter c e r with Done j => (j = -1 \/ j = 0 \/ j = 1)%Z | TimeOverflow => True | _ => False end.
Proof.
  unfold jitter. destruct (_ && _); [auto|]. destruct (_ <? _)%Z eqn:E; cbv zeta; destruct (_ <? _)%Z; auto; destruct (_ <? _)%Z; auto; destruct (_ <? _)%Z; auto.
Qed.

Lemma neighbour_ok c e r : 1 <= c <= n -> match neighbour n c e r with Done k => k = c \/ k = 0 \/ exists x, k = 2 ^ x | TimeOverflow => True | _ => False end.
Proof.
  intros H. unfold neighbour. pose proof (jitter_ok c e r) as J. destruct (jitter c e r) as [j| | |]; cbn [andthen]; auto.
  destruct (Z.eqb_spec j 0); [auto|]. destruct (search_ok c ltac:(lia)) as (i & -> & Hi). cbn [andthen].
  destruct J as [Ej|[Ej|Ej]]; subst j; [|lia|].
  - replace (Z.to_nat (Z.of_nat (S i) + -1)) with i by lia. destruct i as [|i]; [cbn; auto|]. rewrite prepared_nth by lia. eauto.
  - replace (Z.to_nat (Z.of_nat (S i) + 1)) with (S (S i)) by lia. rewrite prepared_nth by lia. eauto.
Qed.

Lemma maxs_pos l : l < levels -> 1 <= maxs n size l.
Proof. destruct P as (A & _ & B). intros H. unfold maxs. pose proof (B l H). lia. Qed.

Lemma restrict_ok l v : l < levels -> v = n \/ fine v l \/ v = 0 \/ (exists e, v = 2 ^ e) ->
  exists k, restrict_to_range 1 (maxs n size l) v = Done k /\ fine k l.
Proof.
  intros H V. pose proof (maxs_pos l H) as M. unfold restrict_to_range. destruct (Nat.ltb_spec (maxs n size l) 1); [lia|].
  assert (Fm : fine (maxs n size l) l) by (split; [unfold in_range, maxs in *; lia|now right]).
  assert (F1 : fine 1 l) by (split; [unfold in_range, maxs in *; lia|left; now exists 0]).
  destruct (Nat.ltb_spec v 1) as [V1|V1]; [eauto|]. destruct (Nat.ltb_spec (maxs n size l) v) as [V2|V2]; [eauto|]. exists v. split; [reflexivity|].
  destruct V as [->|[F|[->|(e & ->)]]]; [|exact F|lia|].
  - replace n with (maxs n size l) at 1 by (unfold maxs in *; lia). exact Fm.
  - split; [unfold in_range, maxs in *; lia|left; eauto].
Qed.

Lemma choose_ok b rands d l : inv d -> l < levels -> good (choose n size b rands d l).
Proof.
  intros I H. unfold choose. destruct (v_nums _ I l H) as ((_ & Hn & _) & _). destruct (Nat.ltb_spec (nums d l) (S n)); [|lia]. cbn [negb].
  assert (K : match (if b then neighbour n (argmins d l) (etimes d l (nums d l)) (rands l) else Done (argmins d l)) with
              | Done v => v = n \/ fine v l \/ v = 0 \/ (exists e, v = 2 ^ e) | TimeOverflow => True | _ => False end).
  { pose proof (v_arg _ I l H) as A. destruct b; [|intuition]. pose proof (neighbour_ok (argmins d l) (etimes d l (nums d l)) (rands l) (arg_range d l I H)) as N.
    destruct (neighbour _ _ _ _); auto. destruct N as [->|[N|N]]; intuition. }
  match type of K with match ?x with _ => _ end => destruct x as [v| | |] end; cbn [andthen]; auto. destruct (restrict_ok l v H K) as (k & -> & F). cbn [andthen good].
  split; cbn; [|apply (v_arg _ I)|apply (v_cur _ I)|apply (v_workers _ I)].
  intros m Hm. unfold set_nat. destruct (Nat.eqb_spec m l) as [->|]; [exact F|now apply (v_nums _ I)].
Qed.

Lemma cost_ok d l : inv d -> l < levels -> good (cost n d l).
Proof.
  intros I H. unfold cost. pose proof (v_nums _ I l H) as F. destruct F as ((F1 & F2 & F3) & F4). destruct (Nat.ltb_spec (nums d l) (S n)); [|lia]. cbn [negb good].
  destruct (_ || _); [|exact I]. split; cbn; [apply (v_nums _ I)| |apply (v_cur _ I)|apply (v_workers _ I)].
  intros m Hm. unfold set_nat. destruct (Nat.eqb_spec m l) as [->|]; [right; split; [unfold in_range; lia|exact F4]|now apply (v_arg _ I)].
Qed.

Lemma for_levels_ok f : (forall d l, inv d -> l < levels -> good (f d l)) -> forall ls d, (forall l, In l ls -> l < levels) -> inv d -> good (for_levels f d ls).
Proof.
  intros F. induction ls as [|l ls IH]; intros d H I; cbn [for_levels]; [exact I|]. pose proof (F d l I (H l (or_introl eq_refl))) as G.
  destruct (f d l); cbn [andthen good] in *; auto. apply IH; [|exact G]. intros m Hm. apply H. now right.
Qed.

Lemma end_tag_ok rands d : inv d -> good (end_tag n levels size rands d).
Proof.
  intros I. unfold end_tag. assert (S0 : forall l, In l (seq 0 levels) -> l < levels) by (intros l Hl; apply in_seq in Hl; lia).
  assert (G : good (if collecting d && negb (starts d 0 =? 0)%Z then for_levels (cost n) d (seq 0 levels) else Done d)).
  { destruct (_ && _); [apply for_levels_ok; auto using cost_ok|exact I]. }
  match type of G with good ?x => destruct x as [d1| | |] end; cbn [andthen good] in *; auto. cbv zeta. set (c := ((counter d1 + 1) mod two64)%Z).
  match goal with |- context [mkData ?a ?b ?nn ?st ?et ?mi ?ar c ?co] => set (d2 := mkData a b nn st et mi ar c co) end.
  assert (I2 : inv d2) by (split; [apply (v_nums _ G)|apply (v_arg _ G)|apply (v_cur _ G)|apply (v_workers _ G)]).
  assert (K : forall b b', good (let! d := for_levels (choose n size b rands) d2 (seq 0 levels) in Done (set_collecting b' d))).
  { intros b b'. assert (G2 : good (for_levels (choose n size b rands) d2 (seq 0 levels))) by (apply for_levels_ok; auto using choose_ok).
    destruct (for_levels _ _ _); cbn [andthen good] in *; auto. split; [apply (v_nums _ G2)|apply (v_arg _ G2)|apply (v_cur _ G2)|apply (v_workers _ G2)]. }
  destruct (_ =? 0)%Z; [apply K|]. destruct (_ =? 1)%Z; [apply K|]. exact I2.
Qed.

Lemma end_level_ok d l k t : inv d -> l < levels -> 1 <= k <= n -> good (end_level n levels d l k t).
Proof.
  intros I H Hk. unfold end_level. destruct (Nat.ltb_spec l levels); [|lia]. cbn [negb]. destruct (_ && _); [|exact I].
  unfold time. destruct (in_int64b (t - starts d l)); cbn [andthen]; [|exact Logic.I].
  pose proof (arg_range d l I H). destruct (Nat.ltb_spec k (S n)); [|lia]. destruct (Nat.ltb_spec (argmins d l) (S n)); [|lia]. cbn [negb orb].
  destruct (etimes d l k =? 0)%Z; [destruct (in_int64b (2 * _))|]; cbn [andthen good]; auto; destruct (in_int64b _); cbn [andthen good]; auto;
    (split; [apply (v_nums _ I)|apply (v_arg _ I)|apply (v_cur _ I)|apply (v_workers _ I)]).
Qed.

Lemma set_level_ok d l t1 t2 : inv d -> l < levels -> good (set_level n levels d l t1 t2).
Proof.
  intros I H. unfold set_level. destruct (Nat.ltb_spec l levels); [|lia]. cbn [negb].
  pose proof (end_level_ok d (current d) (workers d) t1 I (v_cur _ I) (v_workers _ I)) as G. destruct (end_level _ _ _ _ _ _) as [d1| | |]; cbn [andthen good] in *; auto.
  destruct (v_nums _ G l H) as ((? & ? & ?) & _). unfold start_level. cbn [collecting]. destruct (collecting d1); (split; cbn; [apply (v_nums _ G)|apply (v_arg _ G)|exact H|lia]).
Qed.

Lemma advance_ok d rands t1 t2 : inv d -> good (advance n levels size d rands t1 t2).
Proof.
  intros I. unfold advance. pose proof (v_cur _ I). destruct P as (_ & ? & _). destruct (Nat.eqb_spec (current d) (levels - 1)).
  - pose proof (end_tag_ok rands d I) as G. destruct (end_tag _ _ _ _ _); cbn [andthen good] in *; auto. apply set_level_ok; auto.
  - cbn [current]. apply set_level_ok; [|lia]. split; cbn; [apply (v_nums _ I)|apply (v_arg _ I)|lia|apply (v_workers _ I)].
Qed.

Lemma run_ok ops : forall d, inv d -> good (run n levels size d ops).
Proof.
  induction ops as [|[[rands t1] t2] ops IH]; intros d I; cbn [run]; [exact I|]. pose proof (advance_ok d rands t1 t2 I) as G.
  destruct (advance _ _ _ _ _ _ _); cbn [andthen good] in *; auto.
Qed.

Lemma init_inv : inv (init n size).
Proof.
  destruct P as (A & B & C). assert (F : forall l, l < levels -> fine (maxs n size l) l). { intros l H. pose proof (maxs_pos l H). split; [unfold in_range, maxs in *; lia|now right]. }
  split; cbn; auto. pose proof (maxs_pos 0 B). unfold maxs in *. lia.
Qed.
End Proofs.

(** C60: after any number of changes of level, whatever the clock and rand() give,
    the number of workers of every level is at least one and at most the number of
    workers and the number of reactions of the level; every array access is in
    bounds and no assertion fails. *)
Theorem C60_range n levels size ops : levels_ok n levels size ->
  match run n levels size (init n size) ops with
  | Done d => forall l, l < levels -> in_range n size (nums d l) l
  | TimeOverflow => True
  | OutOfBounds | AssertFails => False
  end.
Proof.
  intros P. pose proof (run_ok n levels size P ops _ (init_inv n levels size P)) as G. destruct (run _ _ _ _ _) as [d| | |]; auto.
  intros l H. apply (v_nums _ _ _ _ G l H).
Qed.

(** Only powers of two, or the limit of the level, are chosen. *)
Theorem C60_prepared n levels size ops d l : levels_ok n levels size -> run n levels size (init n size) ops = Done d -> l < levels ->
  power_or_limit n size (nums d l) l.
Proof.
  intros P E H. pose proof (run_ok n levels size P ops _ (init_inv n levels size P)) as G. rewrite E in G. apply (v_nums _ _ _ _ G l H).
Qed.

(** Not every chosen number is in the prepared list: with three workers and three
    reactions, three are used. *)
Theorem C60_prepared_refuted : exists n levels size ops d l, levels_ok n levels size /\
  run n levels size (init n size) ops = Done d /\ l < levels /\ ~ In (nums d l) (prepared n).
Proof.
  exists 3, 1, (fun _ => 3), []. eexists. exists 0. split; [repeat split; intros; lia|]. split; [reflexivity|]. split; [lia|]. cbn. intuition discriminate.
Qed.

(** Finding: a level without reactions.  The assertion of line 587 fails (when the
    number of workers is computed for the first time). *)
Theorem C60_empty_level_refuted : exists n levels size ops, 1 <= n /\ 1 <= levels /\
  run n levels size (init n size) ops = AssertFails.
Proof. exists 2, 2, (fun l => 1 - l), [((fun _ => 0%Z), 1%Z, 2%Z); ((fun _ => 0%Z), 3%Z, 4%Z)]. repeat split; try lia. Qed.

(** Finding: the times recorded for a level are not the times it took.  Line 446
    increments the current level before [set_level] asks for the time of the level
    that was left, and data are collected in every second tag only, the switch being
    set before the last level ends.  What is recorded is the time since the level was
    started in an earlier tag.  One worker, two levels of one reaction; the pairs are
    the readings of the clock at the changes of level: level 1 starts at 100 and ends
    at 101, starts at 201 and ends at 202; recorded for it is 102 = 202 - 100. *)
Definition no_rand (l : nat) : Z := 0%Z.
Theorem C60_recorded_refuted :
  match run 1 2 (fun _ => 1) (init 1 (fun _ => 1))
    [(no_rand, 1, 1); (no_rand, 2, 2); (no_rand, 3, 3); (no_rand, 4, 4);
     (no_rand, 100, 100); (no_rand, 101, 101); (no_rand, 201, 201); (no_rand, 202, 202)]%Z with
  | Done d => etimes d 1 1 = 102%Z
  | _ => False
  end.
Proof. vm_compute. reflexivity. Qed.

(** Three workers, a level of five reactions and one of two: the numbers start at
    three and two, and go on to other values of the list. *)
Example C60_ex : levels_ok 3 2 (fun l => if l =? 0 then 5 else 2) /\
  match run 3 2 (fun l => if l =? 0 then 5 else 2) (init 3 (fun l => if l =? 0 then 5 else 2))
    (map (fun i => (no_rand, Z.of_nat i * 1000 + 1, Z.of_nat i * 1000 + 2)%Z) (seq 0 22)) with
  | Done d => nums d 0 = 2 /\ nums d 1 = 1
  | _ => False
  end.
Proof. split; [|vm_compute; auto]. split; [lia|]. split; [lia|]. intros l _. destruct (l =? 0); lia. Qed.

Print Assumptions C60_range.
Print Assumptions C60_prepared.
Print Assumptions C60_prepared_refuted.
Print Assumptions C60_empty_level_refuted.
Print Assumptions C60_recorded_refuted.
