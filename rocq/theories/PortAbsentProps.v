(** C102: absent outputs are reported once at every tag. *)
From Verif Require Import Base PortAbsent PortAbsentSpec.
Local Open Scope list_scope.

Lemma loop_spec table : forall s, 
  (forall r, q_status (enqueue_loop s table) r = if is_inactive (q_status s r) then (if in_dec Nat.eq_dec r (flat_map (fun o => match o with Some x => [x] | None => [] end) table) then Queued else Inactive) else q_status s r)
  /\ exists added, q_queue (enqueue_loop s table) = q_queue s ++ added
     /\ forall r, times r added = if is_inactive (q_status s r) then (if in_dec Nat.eq_dec r (flat_map (fun o => match o with Some x => [x] | None => [] end) table) then 1 else 0)%nat else 0%nat.
Proof.
  induction table as [|o table IH]; intros s.
  - cbn [enqueue_loop flat_map]. split.
    + intros r. destruct (in_dec _ _ _) as [[]|_]. now destruct (q_status s r).
    + exists []. split; [now rewrite app_nil_r|]. intros r. destruct (in_dec _ _ _) as [[]|_]. now destruct (is_inactive _).
  - cbn [enqueue_loop]. destruct o as [x|]; [|exact (IH s)]. cbn [flat_map app]. set (F := flat_map _ table) in *. destruct (is_inactive (q_status s x)) eqn:A.
    + unfold trigger_reaction. rewrite A. destruct (IH (mkSched (fun y => if Nat.eqb y x then Queued else q_status s y) (q_queue s ++ [x]))) as (B & added & C & D). cbn [q_status q_queue] in *. split.
      * intros r. rewrite B. destruct (Nat.eqb_spec r x) as [->|N].
        -- rewrite A. cbn [is_inactive]. destruct (in_dec _ _ _) as [_|X]; [reflexivity|]. exfalso. apply X. now left.
        -- destruct (is_inactive (q_status s r)); [|reflexivity]. destruct (in_dec Nat.eq_dec r F) as [X|X], (in_dec Nat.eq_dec r (x :: F)) as [Y|Y]; try reflexivity; exfalso; [apply Y; now right|destruct Y as [Y|Y]; [congruence|auto]].
      * exists (x :: added). split; [rewrite C, <- app_assoc; reflexivity|]. intros r. unfold times in *. cbn [count_occ]. destruct (Nat.eq_dec x r) as [->|N].
        -- rewrite D, A, Nat.eqb_refl. cbn [is_inactive]. destruct (in_dec _ _ _) as [_|X]; [reflexivity|]. exfalso. apply X. now left.
        -- rewrite D. destruct (Nat.eqb_spec r x) as [->|_]; [congruence|]. destruct (is_inactive (q_status s r)); [|reflexivity]. destruct (in_dec Nat.eq_dec r F) as [X|X], (in_dec Nat.eq_dec r (x :: F)) as [Y|Y]; try reflexivity; exfalso; [apply Y; now right|destruct Y as [Y|Y]; [congruence|auto]].
    + destruct (IH s) as (B & added & C & D).
      assert (E0 : forall r (T : Type) (a b c : T), (if is_inactive (q_status s r) then (if in_dec Nat.eq_dec r F then a else b) else c) = if is_inactive (q_status s r) then (if in_dec Nat.eq_dec r (x :: F) then a else b) else c).
      { intros r T a b c. destruct (is_inactive (q_status s r)) eqn:Q; [|reflexivity]. destruct (in_dec Nat.eq_dec r F) as [X|X], (in_dec Nat.eq_dec r (x :: F)) as [Y|Y]; try reflexivity; exfalso; [apply Y; now right|]. destruct Y as [Y|Y]; [congruence|auto]. }
      split; [intros r; rewrite B; apply E0|]. exists added. split; [exact C|]. intros r. rewrite D. apply E0.
Qed.
Lemma in_table (r : nat) (table : list (option nat)) : In r (flat_map (fun o => match o with Some x => [x] | None => [] end) table) <-> In (Some r) table.
Proof.
  rewrite in_flat_map. split.
  - intros (o & A & B). destruct o as [x|]; [|destruct B]. destruct B as [->|[]]. exact A.
  - intros A. exists (Some r). split; [exact A|now left].
Qed.
Lemma enqueue_same c d table s : must_tell c d -> enqueue_port_absent_reactions c d table s = enqueue_loop s table.
Proof. intros M. unfold enqueue_port_absent_reactions. destruct M as [->| ->]; [|rewrite Bool.andb_false_r]; cbn [andb]; destruct table; reflexivity. Qed.

(** Every reaction of the table that is inactive is queued, once, even if the table names it more than once. *)
Theorem C102_queued c d table s r : must_tell c d -> In (Some r) table -> q_status s r = Inactive ->
  let s' := enqueue_port_absent_reactions c d table s in q_status s' r = Queued /\ times r (q_queue s') = S (times r (q_queue s)).
Proof.
  intros M T I. cbv zeta. rewrite (enqueue_same _ _ _ _ M). destruct (loop_spec table s) as (B & added & C & D). rewrite B, C. unfold times in *. rewrite count_occ_app, D, I. cbn [is_inactive].
  destruct (in_dec _ _ _) as [_|X]; [split; [reflexivity|lia]|]. exfalso. apply X. now apply in_table.
Qed.
Example C102_queued_ex : let s := mkSched (fun r => if Nat.eqb r 2 then Running else Inactive) [2%nat] in
  must_tell true true /\ In (Some 4%nat) [Some 4; None; Some 2; Some 4; Some 1]%nat /\ q_status s 4 = Inactive
  /\ q_queue (enqueue_port_absent_reactions true true [Some 4; None; Some 2; Some 4; Some 1]%nat s) = [2; 4; 1]%nat.
Proof. cbn. split; [now right|]. auto. Qed.

(** All other reactions, those that are queued or running and those that are not in the table, are left alone; what was in the queue stays there in its order. *)
Theorem C102_others c d table s r : (~ In (Some r) table \/ q_status s r <> Inactive) ->
  let s' := enqueue_port_absent_reactions c d table s in q_status s' r = q_status s r /\ times r (q_queue s') = times r (q_queue s) /\ exists added, q_queue s' = q_queue s ++ added.
Proof.
  intros H. cbv zeta. unfold enqueue_port_absent_reactions. assert (Z0 : q_queue s = q_queue s ++ []) by now rewrite app_nil_r.
  destruct (_ && _)%bool; [eauto|]. destruct (Nat.eqb _ _); [eauto|]. destruct (loop_spec table s) as (B & added & C & D). rewrite B, C. unfold times in *. rewrite count_occ_app, D.
  destruct (is_inactive (q_status s r)) eqn:Q.
  - assert (R : q_status s r = Inactive) by (destruct (q_status s r); [reflexivity|discriminate|discriminate]). destruct H as [H|H]; [|contradiction]. destruct (in_dec _ _ _) as [X|_]; [exfalso; apply H; now apply in_table|].
    split; [now symmetry|]. split; [lia|eauto].
  - split; [reflexivity|]. split; [lia|eauto].
Qed.
Example C102_others_ex : let s := mkSched (fun r => if Nat.eqb r 2 then Running else Inactive) [] in (~ In (Some 7%nat) [Some 4; Some 2]%nat \/ q_status s 7 <> Inactive) /\ (~ In (Some 2%nat) [Some 4; Some 2]%nat \/ q_status s 2 <> Inactive).
Proof. cbn. split; [left; intros [H|[H|[]]]; discriminate|right; discriminate]. Qed.

(** A federate under centralized coordination on which no other depends does nothing. *)
Theorem C102_silent table s : enqueue_port_absent_reactions true false table s = s.
Proof. reflexivity. Qed.
Example C102_silent_ex : q_queue (enqueue_port_absent_reactions false false [Some 3%nat] (mkSched (fun _ => Inactive) [])) = [3%nat].
Proof. reflexivity. Qed.

(** No number of calls in one tag queues a reaction twice. *)
Theorem C102_once c d tables s : orderly s -> orderly (fold_left (fun s t => enqueue_port_absent_reactions c d t s) tables s).
Proof.
  revert s. induction tables as [|t tables IH]; intros s O1; [exact O1|]. cbn [fold_left]. apply IH. clear IH. unfold enqueue_port_absent_reactions. destruct (_ && _)%bool; [exact O1|]. destruct (Nat.eqb _ _); [exact O1|].
  intros r. destruct (loop_spec t s) as (B & added & C & D). rewrite B, C. specialize (O1 r). unfold times in *. rewrite count_occ_app, D, O1. destruct (is_inactive (q_status s r)) eqn:Q; [|now rewrite Q]. now destruct (in_dec _ _ _).
Qed.
Example C102_once_ex : let s := mkSched (fun r => if Nat.eqb r 2 then Queued else Inactive) [2%nat] in orderly s /\ q_queue (fold_left (fun s t => enqueue_port_absent_reactions true true t s) [[Some 2; Some 5]; [Some 5; Some 2; Some 6]]%nat s) = [2; 5; 6]%nat.
Proof. cbn. split; [|reflexivity]. intros r. unfold times. cbn [q_queue q_status count_occ]. destruct (Nat.eq_dec 2 r) as [<-|N]; [reflexivity|]. destruct (Nat.eqb_spec r 2); [congruence|reflexivity]. Qed.

Print Assumptions C102_queued.
Print Assumptions C102_others.
Print Assumptions C102_silent.
Print Assumptions C102_once.
