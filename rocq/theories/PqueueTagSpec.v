(** Specification of the tag queue: a finite collection of tags. *)
From Verif Require Import Base Tag TagSpec Pqueue PqueueSpec PqueueTag.
From Coq Require Import Permutation.
Open Scope Z_scope.

(** [x] is passed by [t]: at most [t] (FOREVER_TAG entries are never passed). *)
Definition passed (t x : tag) : Prop := tag_le x t /\ tag_lt x FOREVER_TAG.

Definition tq_spec (s : list tag) (o : tqop) (s' : list tag) (out : tqout) : Prop :=
  match o, out with
  | TInsert t, TRet z => z = 0 /\ Permutation s' (t :: s)
  | TInsertNew t, TRet z =>
      (In t s /\ z = 1 /\ s' = s) \/ (~ In t s /\ z = 0 /\ Permutation s' (t :: s))
  | TPeek, TTag x => s' = s /\
      ((s = [] /\ x = FOREVER_TAG) \/ (In x s /\ forall y, In y s -> tag_le x y))
  | TPop, TTag x =>
      (s = [] /\ s' = [] /\ x = FOREVER_TAG) \/
      (Permutation s (x :: s') /\ forall y, In y s -> tag_le x y)
  | TRemoveUpTo t, TUnit =>
      exists removed, Permutation s (removed ++ s') /\
        (forall x, In x removed -> passed t x) /\ (forall x, In x s' -> ~ passed t x)
  | TSize, TNat n => s' = s /\ n = length s
  | _, _ => False
  end.
Inductive tq_spec_run : list tag -> list tqop -> list tag -> list tqout -> Prop :=
| tsr_nil s : tq_spec_run s [] s []
| tsr_cons s o s1 out os s2 outs :
    tq_spec s o s1 out -> tq_spec_run s1 os s2 outs -> tq_spec_run s (o :: os) s2 (out :: outs).

(** The tags stored in a queue. *)
Definition tq_tags (s : tq) : list tag := map (tq_tag s) (pq_elems (tq_q s)).
