(** Specification of the growable array (include/core/utils/vector.h). *)
From Verif Require Import Base Vector.
Open Scope nat_scope.

(** Specification: a stack, as the list of cells from the bottom; a cell is
    [Some pointer], or [None] if its content is indeterminate. *)
Definition vspec (s : list (option nat)) (o : vop) (s' : list (option nat)) (out : vout) : Prop :=
  match o, out with
  | VPush x, VUnit => s' = s ++ [Some x]
  | VPushAll xs, VUnit => s' = s ++ map Some xs
  | VPop, VPopped None => s = [] /\ s' = []
  | VPop, VPopped (Some c) => s = s' ++ [c]
  | VAtGet i, VCell c =>
      (* existing elements are kept; the vector is extended to contain index i *)
      length s' = Nat.max (length s) (i + 1) /\ firstn (length s) s' = s /\ nth_error s' i = Some c
  | VAtSet i x, VUnit =>
      exists s1, length s1 = Nat.max (length s) (i + 1) /\ firstn (length s) s1 = s /\
        s' = firstn i s1 ++ [Some x] ++ skipn (i + 1) s1
  | VSize, VNum n => s' = s /\ n = length s
  | VVote, VUnit => s' = s
  | _, _ => False
  end.
Definition vpre (o : vop) : Prop :=
  match o with VPushAll xs => Forall (fun x => x <> 0) xs | _ => True end.
Inductive vspec_run : list (option nat) -> list vop -> list (option nat) -> list vout -> Prop :=
| vsr_nil s : vspec_run s [] s []
| vsr_cons s o s1 out os s2 outs : vspec s o s1 out -> vspec_run s1 os s2 outs ->
    vspec_run s (o :: os) s2 (out :: outs).

