(** Specification vocabulary for C29 and C30. *)
From Verif Require Import Base Multiport.
Open Scope Z_scope.

(** The present channels in ascending order. *)
Definition present_channels (m : mport) : list nat := filter (mp_pres m) (seq 0 (Z.to_nat (mp_width m))).
(** A fresh tag of a multiport whose record, if it has one, has room for no more channels than there are. *)
Definition fresh (m : mport) : Prop :=
  (forall c, mp_pres m c = false) /\
  match mp_sparse m with Some sp => sp_size sp = 0 /\ length (sp_chan sp) = sp_cap sp /\ Z.of_nat (sp_cap sp) <= mp_width m | None => True end.
(** First [k] results of a sequence of calls: the elements, then -1 for ever. *)
Definition then_minus_one (l : list nat) (k : nat) : list Z := firstn k (map Z.of_nat l ++ repeat (-1) k).

(** The histories of C29: every channel exists and is set at most once at each tag ([cur]: those set so far at this
    tag), and the results that are expected: at each iteration exactly the channels set so far at this tag, in ascending order. *)
Fixpoint once (width : Z) (cur : list nat) (os : list mop) : Prop :=
  match os with
  | [] => True
  | MSet c :: r => Z.of_nat c < width /\ ~ In c cur /\ once width (c :: cur) r
  | MIter _ :: r => once width cur r
  | MTag :: r => once width [] r
  end.
Fixpoint expected (width : Z) (cur : list nat) (os : list mop) : list (list Z) :=
  match os with
  | [] => []
  | MSet c :: r => expected width (c :: cur) r
  | MIter k :: r => then_minus_one (filter (fun c => if in_dec Nat.eq_dec c cur then true else false) (seq 0 (Z.to_nat width))) k :: expected width cur r
  | MTag :: r => expected width [] r
  end.

Definition is_done (w : writer) : Prop := exists o, w_phase w = Done o.
(** Start of concurrent writes: an empty record, every writer at the beginning. *)
Definition start_writes (cap : nat) (chan : list nat) (ws : list nat) : shared := mkSh cap 0 chan (map (fun c => mkW c Start) ws).
