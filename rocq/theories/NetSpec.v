(** What the network layer should do, independently of the model's helpers. *)
From Verif Require Import Base Tag Net.

(** The [n] low bytes of [v], least significant first. *)
Definition little_endian (n : nat) (v : Z) : list Z :=
  map (fun i => (v / 256 ^ Z.of_nat i) mod 256) (seq 0 n).

Definition in_uint16 (z : Z) : Prop := 0 <= z < 65536.
Definition in_int32 (z : Z) : Prop := -2147483648 <= z < 2147483648.
Definition is_byte (z : Z) : Prop := 0 <= z < 256.

Definition rd_fails (e : rd_event) : Prop := e = RErr \/ e = REof.
Definition rd_delivers (e : rd_event) : bool := match e with RSome _ => true | _ => false end.
Definition wr_delivers (e : wr_event) : bool := match e with WSome (S _) => true | _ => false end.

(** The times proposed in a history in which every proposal is a time encoded by a federate. *)
Inductive proposes : list start_op -> list Z -> Prop :=
| proposes_nil : proposes [] []
| proposes_prop : forall f t l ts, in_int64 t -> proposes l ts -> proposes (Propose f (encode_int64 t) :: l) (t :: ts)
| proposes_reply : forall f l ts, proposes l ts -> proposes (Reply f :: l) ts.
(** The largest of [ts] and [m]. *)
Definition is_max (m : Z) (ts : list Z) (x : Z) : Prop := (x = m \/ In x ts) /\ m <= x /\ forall t, In t ts -> t <= x.
