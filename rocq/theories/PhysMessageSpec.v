(** What is expected of messages on physical connections (C94). *)
From Verif Require Import Base Net NetSpec PhysMessage.
Open Scope Z_scope.

(** A message: port and contents. *)
Definition contents (q : request) : Z * list Z := (q_port q, q_body q).
(** A message that the program may send: to an input port of the federate at the other end, of bytes. *)
Definition valid (c : config) (q : request) : Prop :=
  q_type q = 17 /\ 0 <= q_port q < c_ports c /\ q_port q < 65536 /\ q_fed q = c_id c /\ 0 <= q_fed q < 65536 /\
  Forall is_byte (q_body q).
Definition size (q : request) : Z := Z.of_nat (length (q_body q)).
(** The requests that were answered 0 (sent), given the answers. *)
Fixpoint accepted (qs : list request) (answers : list Z) : list request :=
  match qs, answers with
  | q :: qs, a :: answers => if a =? 0 then q :: accepted qs answers else accepted qs answers
  | _, _ => []
  end.
(** [p] is the beginning of [l]. *)
Definition prefix {A} (p l : list A) : Prop := exists rest, l = p ++ rest.

(** The operating system does not fail and keeps moving bytes: enough for any of the reads. *)
Definition rd_good (n : nat) (evs : list rd_event) : Prop :=
  Forall (fun e => e <> RErr /\ e <> REof) evs /\ (n <= length (filter rd_delivers evs))%nat.
Definition round_good (q : request) (x : round) : Prop :=
  rd_good 1 (fst (fst x)) /\ rd_good 8 (snd (fst x)) /\ rd_good (length (q_body q)) (snd x).
Definition wr_good (q : request) : Prop :=
  ~ In WErr (q_eh q) /\ (9 <= length (filter wr_delivers (q_eh q)))%nat /\
  ~ In WErr (q_eb q) /\ (length (q_body q) <= length (filter wr_delivers (q_eb q)))%nat.
(** The bytes of a message: a type byte, then port, federate and length, least significant byte first, then the contents. *)
Definition on_wire (q : request) : list Z :=
  17 :: little_endian 2 (q_port q) ++ little_endian 2 (q_fed q) ++ little_endian 4 (size q) ++ q_body q.
