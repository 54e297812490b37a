(** The specification of deterministic federated execution (C74). *)
From Coq Require Import Sorting.Permutation.
From Verif Require Import Base Tag RtiDelays Rti Federation FedData.

(** What a federate does at a tag depends on what is present, not on the order in which it arrived. *)
Definition order_free {St V} (g : program St V) : Prop :=
  forall i st t l1 l2, Permutation l1 l2 -> g_react g i st t l1 = g_react g i st t l2.

(** The same tag with the same inputs. *)
Definition same_entry {V} (a b : tag * list (input V)) : Prop := fst a = fst b /\ Permutation (snd a) (snd b).

(** The first history is a beginning of the second one. *)
Definition begins {V} (l1 l2 : list (tag * list (input V))) : Prop := Forall2 same_entry l1 (firstn (length l1) l2).

(** Nothing is left to do: every event from outside has happened, every message has arrived, every effect is performed and
    every queue is empty. *)
Definition finished {St V} (tp : topo) (y : dsys St V) : Prop :=
  forall i, (i < tp_n tp)%nat -> d_ext (d_fed y i) = [] /\ d_ev (d_fed y i) = [] /\ d_up (d_fed y i) = [] /\ d_in (d_fed y i) = [] /\ d_todo (d_fed y i) = [].

(** One list is a beginning of the other. *)
Definition comparable {A} (l1 l2 : list A) : Prop := (exists r, l2 = l1 ++ r) \/ (exists r, l1 = l2 ++ r).

(** What an effect of federate [k], performed at a tag, puts in the way of federate [i]: at which tag, and what. *)
Definition addressed {V} (k i : nat) (oe : tag * effect V) : list (tag * input V) :=
  match snd oe with
  | ESched t v => if (k =? i)%nat then [(t, IOwn v)] else []
  | ESend j c v => if (j =? i)%nat then [(delay_tag (fst oe) c, IMsg k v)] else []
  end.
(** All inputs that federate [i] should see: the events from outside, and what the federates have performed. *)
Definition inputs_for {St V} (g : program St V) (tp : topo) (y : dsys St V) (i : nat) : list (tag * input V) :=
  map (fun e => (fst e, IExt (snd e))) (g_ext g i) ++ flat_map (fun k => flat_map (addressed k i) (d_log (d_fed y k))) (seq 0 (tp_n tp)).
(** The inputs that were present when tag [t] was executed. *)
Definition present {V} (t : tag) (l : list (tag * list (input V))) : list (input V) := flat_map snd (filter (fun e => tag_eqb t (fst e)) l).

(** What the program of federate [i] gives for a history: the state, and all effects with their tags. *)
Fixpoint run_program {St V} (g : program St V) (i : nat) (st : St) (l : list (tag * list (input V))) : St * list (tag * effect V) :=
  match l with
  | [] => (st, [])
  | (t, xs) :: l => let (st1, es) := g_react g i st t xs in let (st2, r) := run_program g i st1 l in (st2, map (pair t) es ++ r)
  end.
