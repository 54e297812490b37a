(** Specification of the authentication of federates. *)
From Verif Require Import Base CText Net Admission Duet DuetSpec Join Auth.
Local Open Scope Z_scope.

(** A hash of 32 bytes. *)
Definition hash32 (h : hash) : Prop := forall k m, length (h k m) = 32%nat.
(** The bytes that each of the two programs sends in a run. *)
Definition utterance {A} (p : proc A) : list Z := match p with Send b _ => b | _ => [] end.
Fixpoint said_one {A B} (l : list bool) (s : duet A B) : list Z :=
  match l with
  | [] => []
  | b :: l => match step b s with Some s' => (if b then utterance (one s) else []) ++ said_one l s' | None => said_one l s end
  end.
Fixpoint said_two {A B} (l : list bool) (s : duet A B) : list Z :=
  match l with
  | [] => []
  | b :: l => match step b s with Some s' => (if b then [] else utterance (two s)) ++ said_two l s' | None => said_two l s end
  end.
(** Some bytes contain others. *)
Definition contains (b x : list Z) : Prop := exists u v, b = u ++ x ++ v.
(** The tags that a federate and a coordinator with this federation id expect. *)
Definition rti_tag (h : hash) (id : text) (fed : nat) (fed_nonce : list Z) : list Z := h (firstn 255 id) ([101] ++ encode_uint16 (Z.of_nat fed) ++ fed_nonce).
Definition fed_tag (h : hash) (id : text) (rti_nonce : list Z) : list Z := h (firstn 255 id) ([102] ++ rti_nonce).
