(** Specification of the direct connections between federates. *)
From Verif Require Import Base CText Net Admission Peers.
Local Open Scope Z_scope.

(** A possible federation: federates have numbers below [n], which fits in 16 bits,
    one call per peer, and the federation id is a string that is not empty. *)
Record federation (s : static) : Prop := {
  F_size : Z.of_nat (n s) <= 65536;
  F_peers : forall f g, In g (peers s f) -> (f < n s)%nat /\ (g < n s)%nat;
  F_once : forall f, NoDup (peers s f);
  F_id : my_id s <> [] /\ Forall (fun c => 0 < c < 256) (my_id s) }.
(** The address under which the coordinator knows a federate leads to its host, from
    wherever it is used. *)
Definition routed (s : static) : Prop :=
  forall f g, In g (peers s f) -> reach s (host s f) (addr s g) = Some (host s g).

(** A first message that is not one of this federation: it is too short, of another
    type, or carries an id that differs from ours somewhere. *)
Definition differs (mine id : text) : Prop :=
  exists i x y, (i < 255)%nat /\ nth_error mine i = Some x /\ nth_error id i = Some y /\ x <> y.
Definition foreign (s : static) (bytes : list Z) : Prop :=
  (length bytes < 4)%nat \/ nth 0 bytes 0 <> MSG_TYPE_P2P_SENDING_FED_ID \/
  (exists a b id more, bytes = [MSG_TYPE_P2P_SENDING_FED_ID; a; b; Z.of_nat (length id)] ++ id ++ more /\ differs (my_id s) id).
Definition harmless (s : static) (o : op) : Prop :=
  match o with Stranger _ bytes => foreign s bytes | _ => True end.
Definition patient (o : op) : Prop := match o with GiveUp _ => False | _ => True end.

(** The federates that connect to [g]. *)
Definition connecting (s : static) (g : nat) : list nat :=
  filter (fun f => existsb (Nat.eqb g) (peers s f)) (seq 0 (n s)).
(** A federate is done with its connections. *)
Definition finished (st : net) (f : nat) : Prop := ph (feds st f) = Idle /\ todo (feds st f) = [].

(** The passes of a loop are at least [ADDRESS_QUERY_RETRY_INTERVAL] apart: the loop
    sleeps for that long. *)
Definition spaced {A} (now : A -> Z) (t0 : Z) (l : list A) : Prop :=
  forall i x, nth_error l i = Some x -> t0 + Z.of_nat i * ADDRESS_QUERY_RETRY_INTERVAL <= now x.
