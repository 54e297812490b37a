(** Specification vocabulary for C18-C20: who holds references to a token. *)
From Verif Require Import Base Pqueue Token.
From Coq Require Import Arith.
Open Scope Z_scope.

(** References held by templates (ports and actions). *)
Definition has (o : option nat) (t : nat) : nat :=
  match o with Some x => if Nat.eqb x t then 1 else 0 | None => 0 end%nat.
Definition tcount (reg : list nat) (f : nat -> option nat) (t : nat) : nat :=
  fold_right (fun i n => has (f i) t + n)%nat 0%nat reg.
Definition tmpl_holders (s : tst) (t : nat) : nat := tcount (ts_reg s) (fun i => tp_tok (ts_tmpl s i)) t.

(** The writable copies made in this tag, linked through the next fields. *)
Inductive chain (h : nat -> option tok) : option nat -> list nat -> Prop :=
| chain_nil : chain h None []
| chain_cons t k l : h t = Some k -> chain h (tk_next k) l -> chain h (Some t) (t :: l).

(** All references: templates, this tag's copies, and [E]: events in the queue and
    whatever else took a reference and has not given it back. *)
Definition holders (s : tst) (C E : list nat) (t : nat) : nat :=
  (tmpl_holders s t + count_occ Nat.eq_dec C t + count_occ Nat.eq_dec E t)%nat.

(** A token a client may legitimately name: allocated and not recycled. *)
Definition usable (s : tst) (t : nat) : Prop := ts_tok s t <> None /\ ~ In t (ts_bin s).
(** The payload of a token. *)
Definition contents (s : tst) (t : nat) : option (list Z) :=
  match ts_tok s t with
  | Some k => match tk_val k with Some p => ts_pay s p | None => None end
  | None => None
  end.
Definition payload (s : tst) (t : nat) : option nat :=
  match ts_tok s t with Some k => tk_val k | None => None end.

Fixpoint remove1 (t : nat) (E : list nat) : list nat :=
  match E with [] => [] | x :: r => if Nat.eqb x t then r else x :: remove1 t r end.

(** Can the template's own token be reused for a new value? *)
Definition reusable (s : tst) (i : nat) : bool :=
  match tp_tok (ts_tmpl s i) with
  | Some t => match ts_tok s t with Some k => tk_ref k =? 1 | None => false end
  | None => false
  end.
(** The token a fresh allocation yields. *)
Definition next_token (s : tst) : nat := match ts_bin s with t :: _ => t | [] => ts_fresh s end.

(** How the external references [E] evolve.  [lf_set] on a template whose token is
    shared overwrites the template's pointer: the old reference stays behind.
    [lf_schedule_value] on such a template creates a token with a reference of its own. *)
Definition ext_step (s : tst) (E : list nat) (o : top) : list nat :=
  match o with
  | OHold t => t :: E
  | ODone t => remove1 t E
  | OSet i _ => if reusable s i then E
                else match tp_tok (ts_tmpl s i) with Some t => t :: E | None => E end
  | OValue i _ => if reusable s i then E else next_token s :: E
  | _ => E
  end.

(** Discipline of the clients.  [room] is how many more tokens fit in the bin. *)
Definition op_ok (s : tst) (C E : list nat) (o : top) : Prop :=
  match o with
  | ONew _ _ => True
  | OHold t => usable s t /\ Z.of_nat (holders s C E t) + 1 < two64
  | ODone t => In t E
  | OSetToken i t => In i (ts_reg s) /\ usable s t /\ Z.of_nat (holders s C E t) + 1 < two64
  | OClear i => In i (ts_reg s)
  | OInit _ _ => True
  | OSet i _ | OValue i _ => In i (ts_reg s)
  | OCopy i => match tp_tok (ts_tmpl s i) with
               | Some t => contents s t <> None
               | None => True
               end
  | OEndTag => (length (ts_bin s) + length C <= BIN_LIMIT)%nat
  end.

(** Disciplined histories, with the ghost lists. *)
Definition copies_of (s : tst) : list nat :=
  (fix walk (fuel : nat) (o : option nat) : list nat :=
     match fuel, o with
     | S f, Some t => t :: match ts_tok s t with Some k => walk f (tk_next k) | None => [] end
     | _, _ => []
     end) (ts_fresh s) (ts_list s).
Fixpoint ok_run (s : tst) (E : list nat) (os : list top) : Prop :=
  match os with
  | [] => True
  | o :: r => op_ok s (copies_of s) E o /\ forall s1, top_step s o = Ok s1 -> ok_run s1 (ext_step s E o) r
  end.
Fixpoint ext_run (s : tst) (E : list nat) (os : list top) : list nat :=
  match os with
  | [] => E
  | o :: r => match top_step s o with Ok s1 => ext_run s1 (ext_step s E o) r | UB => E end
  end.
