(** Property theorems C07-C10 (priority queues). *)
From Verif Require Import Base Tag TagSpec Pqueue PqueueSpec PqueueProofs PqueueTag PqueueTagSpec PqueueTagProofs.
From Coq Require Import Permutation.
Open Scope nat_scope.

(** C07 — every legal history runs without undefined behaviour and answers as a
    collection of elements that always hands out a minimum. *)
Theorem C07_histories_refine_collection : forall cmp eqe n pos ops,
  cmp_ok cmp -> cmp3 cmp -> legal cmp eqe (pq_init n pos) ops ->
  exists q outs, pq_run cmp eqe (pq_init n pos) ops = Ok (q, outs) /\
    pq_spec_run cmp eqe [] ops (pq_elems q) outs.
Proof.
  intros cmp eqe n pos ops Hc H3 Hl.
  destruct (run_spec cmp Hc eqe ops _ (proj1 (init_inv cmp n pos)) H3 Hl) as (q & outs & E & _ & S).
  exact (ex_intro _ q (ex_intro _ outs (conj E S))).
Qed.
Print Assumptions C07_histories_refine_collection.

(** The runtime's callbacks satisfy the obligations of the theorem. *)
Theorem C07_runtime_orders_qualify :
  (forall pri, cmp_ok (in_reverse_order pri) /\ cmp3 (in_reverse_order pri)) /\
  (cmp_ok in_no_particular_order /\ cmp3 in_no_particular_order) /\
  (forall tg, cmp_ok (tcmp tg) /\ cmp3 (tcmp tg)).
Proof.
  split; [|split].
  - intros pri. split.
    + constructor; unfold in_reverse_order; intros;
        repeat match goal with |- context [if ?b then _ else _] => destruct b eqn:?
               | H : context [if ?b then _ else _] |- _ => destruct b eqn:? end; lia.
    + intros a b; unfold in_reverse_order;
        repeat match goal with |- context [if ?b then _ else _] => destruct b eqn:? end; lia.
  - split; [constructor|intros a b]; unfold in_no_particular_order; intros; lia.
  - exact (fun tg => conj (tcmp_ok tg) (tcmp_cmp3 tg)).
Qed.
Print Assumptions C07_runtime_orders_qualify.

Definition ex_pri (e : elem) : Z := Z.of_nat (e mod 3).
Definition ex_ops : list pqop :=
  [OInsert 4; OInsert 2; OInsert 3; OInsert 6; OPeek; ORemove 2; OPop; OSize; OFindSame 9; OPop; OPop; OPop].
Example C07_ex : legal (in_reverse_order ex_pri) Nat.eqb (pq_init 1 (fun _ => 0)) ex_ops /\
  (do! r <- pq_run (in_reverse_order ex_pri) Nat.eqb (pq_init 1 (fun _ => 0)) ex_ops; Ok (snd r)) =
    Ok ([OutUnit; OutUnit; OutUnit; OutUnit; OutElem (Some 3); OutUnit; OutElem (Some 3); OutNat 2;
            OutElem (Some 6); OutElem (Some 6); OutElem (Some 4); OutElem None]).
Proof.
  split; [apply legalb_legal; vm_compute; reflexivity|vm_compute; reflexivity].
Qed.

(** Moving one queue into another keeps all elements, in either direction of the
    internal swap. *)
Theorem C07_empty_into : forall cmp dest src, cmp_ok cmp -> inv cmp dest -> inv cmp src ->
  NoDup (pq_elems dest ++ pq_elems src) -> (forall x, pq_pos dest x = pq_pos src x) ->
  exists d' s', pq_empty_into cmp dest src = Ok (d', s') /\ inv cmp d' /\ inv cmp s' /\
    pq_elems s' = [] /\ Permutation (pq_elems d') (pq_elems dest ++ pq_elems src).
Proof. exact (fun cmp d s Hc => empty_into_spec cmp Hc d s). Qed.
Print Assumptions C07_empty_into.
(** ... and every queue reached by a legal history meets its premise. *)
Theorem C07_reachable_inv : forall cmp eqe n pos ops q outs,
  cmp_ok cmp -> cmp3 cmp -> legal cmp eqe (pq_init n pos) ops ->
  pq_run cmp eqe (pq_init n pos) ops = Ok (q, outs) -> inv cmp q /\ pq_is_valid cmp q = Ok true.
Proof.
  intros cmp eqe n pos ops q outs Hc H3 Hl E.
  destruct (run_spec cmp Hc eqe ops _ (proj1 (init_inv cmp n pos)) H3 Hl) as (q' & outs' & E' & Hi & _).
  assert (q' = q) as -> by congruence. split; [exact Hi|].
  apply is_valid_true_spec; try assumption; lia.
Qed.
Print Assumptions C07_reachable_inv.

(** C08 — positions recorded in the elements are exact after every legal history,
    and removing by reference removes exactly that element (the [ORemove] clause
    of [pq_spec]). *)
Theorem C08_positions_exact : forall cmp eqe n pos ops q outs,
  cmp_ok cmp -> cmp3 cmp -> legal cmp eqe (pq_init n pos) ops ->
  pq_run cmp eqe (pq_init n pos) ops = Ok (q, outs) ->
  pos_exact q /\
  forall e, In e (pq_elems q) -> exists q', pq_remove cmp q e = Ok q' /\
    Permutation (pq_elems q) (e :: pq_elems q') /\ pos_exact q'.
Proof.
  intros cmp eqe n pos ops q outs Hc H3 Hl E.
  destruct (run_spec cmp Hc eqe ops _ (proj1 (init_inv cmp n pos)) H3 Hl) as (q' & outs' & E' & Hi & _).
  assert (q' = q) as -> by congruence. split; [exact (inv_pos_exact cmp q Hi)|].
  intros e He. rewrite (elems_qel cmp q Hi) in *.
  destruct (remove_spec cmp Hc q e Hi He) as (q1 & E1 & Hi1 & P & _).
  exists q1. split; [exact E1|]. rewrite (elems_qel cmp q1 Hi1). split; [exact P|exact (inv_pos_exact cmp q1 Hi1)].
Qed.
Print Assumptions C08_positions_exact.

(** Printing a queue spoils the recorded positions: afterwards removing element 2
    leaves element 2 in the queue and drops another one. *)
Theorem C08_print_preserves_queue_refuted : exists cmp q q' l q'',
  cmp_ok cmp /\ inv cmp q /\ pq_print cmp q = Ok (q', l) /\
  In 2 (pq_elems q') /\ pq_remove cmp q' 2 = Ok q'' /\ In 2 (pq_elems q'') /\
  length (pq_elems q'') = length (pq_elems q') - 1.
Proof.
  pose (cmp := in_reverse_order Z.of_nat).
  assert (Hc : cmp_ok cmp) by apply C07_runtime_orders_qualify.
  assert (H3 : cmp3 cmp) by apply C07_runtime_orders_qualify.
  pose (ops := [OInsert 1; OInsert 2; OInsert 3]).
  assert (Hl : legal cmp Nat.eqb (pq_init 4 (fun _ => 0)) ops).
  { apply legalb_legal; vm_compute; reflexivity. }
  destruct (run_spec cmp Hc Nat.eqb ops _ (proj1 (init_inv cmp 4 (fun _ => 0))) H3 Hl) as (q & outs & E & Hi & _).
  assert (T : match pq_run cmp Nat.eqb (pq_init 4 (fun _ => 0)) ops with
              | Ok (q, _) => match pq_print cmp q with
                | Ok (q', _) => match pq_remove cmp q' 2 with
                  | Ok q'' => (pq_elems q', pq_elems q'') = ([1; 2; 3], [2; 3])
                  | UB => False end | UB => False end | UB => False end) by (vm_compute; reflexivity).
  rewrite E in T.
  destruct (pq_print cmp q) as [[q' l]|] eqn:E1; [|contradiction].
  destruct (pq_remove cmp q' 2) as [q''|] eqn:E2; [|contradiction].
  injection T as T1 T2.
  exists cmp, q, q', l, q''. split; [exact Hc|]. split; [exact Hi|]. split; [exact E1|].
  rewrite T1, T2. split; [right; left; reflexivity|]. split; [exact E2|]. split; [left; reflexivity|reflexivity].
Qed.
Print Assumptions C08_print_preserves_queue_refuted.

(** C09 — pruned searches are exact in every reachable queue. *)
Theorem C09_find_same_priority : forall cmp eqe n pos ops q outs e,
  cmp_ok cmp -> cmp3 cmp -> legal cmp eqe (pq_init n pos) ops ->
  pq_run cmp eqe (pq_init n pos) ops = Ok (q, outs) ->
  (exists x, pq_find_same cmp q e = Ok (Some x) /\ In x (pq_elems q) /\ cmp x e = 0%Z) \/
  (pq_find_same cmp q e = Ok None /\ forall x, In x (pq_elems q) -> cmp x e <> 0%Z).
Proof.
  intros cmp eqe n pos ops q outs e Hc H3 Hl E.
  destruct (run_spec cmp Hc eqe ops _ (proj1 (init_inv cmp n pos)) H3 Hl) as (q' & outs' & E' & Hi & _).
  assert (q' = q) as -> by congruence.
  destruct (step_spec cmp Hc eqe q (OFindSame e) Hi H3 I) as (q1 & out & E1 & _ & Hs).
  cbn [pq_step_op] in E1. destruct (pq_find_same cmp q e) as [r|]; [|discriminate].
  cbn [bind] in E1. injection E1 as <- <-. cbn in Hs. destruct r as [x|].
  - left. exists x. destruct Hs as (_ & H1 & H2). exact (conj eq_refl (conj H1 H2)).
  - right. exact (conj eq_refl (proj2 Hs)).
Qed.
Print Assumptions C09_find_same_priority.

Theorem C09_find_equal_same_priority : forall cmp eqe n pos ops q outs e,
  cmp_ok cmp -> cmp3 cmp -> legal cmp eqe (pq_init n pos) ops ->
  pq_run cmp eqe (pq_init n pos) ops = Ok (q, outs) ->
  (exists x, pq_find_equal_same cmp eqe q e = Ok (Some x) /\ In x (pq_elems q) /\ cmp x e = 0%Z /\ eqe x e = true) \/
  (pq_find_equal_same cmp eqe q e = Ok None /\ forall x, In x (pq_elems q) -> ~ (cmp x e = 0%Z /\ eqe x e = true)).
Proof.
  intros cmp eqe n pos ops q outs e Hc H3 Hl E.
  destruct (run_spec cmp Hc eqe ops _ (proj1 (init_inv cmp n pos)) H3 Hl) as (q' & outs' & E' & Hi & _).
  assert (q' = q) as -> by congruence.
  destruct (step_spec cmp Hc eqe q (OFindEqual e) Hi H3 I) as (q1 & out & E1 & _ & Hs).
  cbn [pq_step_op] in E1. destruct (pq_find_equal_same cmp eqe q e) as [r|]; [|discriminate].
  cbn [bind] in E1. injection E1 as <- <-. cbn in Hs. destruct r as [x|].
  - left. exists x. destruct Hs as (_ & H1 & H2). exact (conj eq_refl (conj H1 H2)).
  - right. exact (conj eq_refl (proj2 Hs)).
Qed.
Print Assumptions C09_find_equal_same_priority.

(** C10 — tag queues. *)
Theorem C10_tag_queue_refines_collection : forall n ops,
  exists s outs, tq_run (tq_init n) ops = Ok (s, outs) /\ tq_spec_run [] ops (tq_tags s) outs.
Proof.
  intros n ops. destruct (tq_init_inv n) as [Hi E0].
  destruct (tq_run_spec ops _ Hi) as (s & outs & E & _ & S). rewrite E0 in S.
  exact (ex_intro _ s (ex_intro _ outs (conj E S))).
Qed.
Print Assumptions C10_tag_queue_refines_collection.

Theorem C10_at_most_one_entry_per_tag : forall n ops s outs,
  Forall no_plain_insert ops -> tq_run (tq_init n) ops = Ok (s, outs) -> NoDup (tq_tags s).
Proof.
  intros n ops s outs Hf E. destruct (tq_init_inv n) as [Hi E0].
  destruct (tq_run_spec ops _ Hi) as (s' & outs' & E' & _ & S). rewrite E0 in S.
  assert (s' = s) as -> by congruence.
  exact (tq_spec_run_nodup _ _ _ _ S Hf (NoDup_nil _)).
Qed.
Print Assumptions C10_at_most_one_entry_per_tag.
Example C10_ex :
  let ops := [TInsertNew (mkTag 5 0); TInsertNew (mkTag 3 1); TInsertNew (mkTag 5 0); TInsertNew (mkTag 9 0);
              TPeek; TRemoveUpTo (mkTag 5 0); TSize; TPop; TPop] in
  Forall no_plain_insert ops /\
  (do! r <- tq_run (tq_init 2) ops; Ok (snd r)) = Ok ([TRet 0; TRet 0; TRet 1; TRet 0; TTag (mkTag 3 1); TUnit; TNat 1;
                                   TTag (mkTag 9 0); TTag FOREVER_TAG]).
Proof. split; [repeat constructor|vm_compute; reflexivity]. Qed.

(** "Removes exactly the entries at most t" is false for FOREVER_TAG entries,
    which are never removed. *)
Theorem C10_remove_up_to_forever_refuted : exists s outs,
  tq_run (tq_init 2) [TInsert FOREVER_TAG; TRemoveUpTo FOREVER_TAG; TSize] = Ok (s, outs) /\
  outs = [TRet 0; TUnit; TNat 1].
Proof. eexists _, _; split; reflexivity. Qed.
Print Assumptions C10_remove_up_to_forever_refuted.
