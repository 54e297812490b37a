(** Specification of joining a federation. *)
From Verif Require Import Base CText Net NetSpec Admission Duet DuetSpec Join.
Local Open Scope Z_scope.

(** The coordinator takes this federate: it has the same federation id, a number that
    is in range and not taken, and its description of its neighbors can be encoded and
    fits in the memory of the coordinator. *)
Record can_talk (f : federate) (c : coordinator) : Prop := {
  J_id : federation_id (c_rti c) = f_federation f;
  J_string : Forall (fun x => 0 < x < 256) (f_federation f);
  J_nodes : Z.of_nat (nodes (c_rti c)) <= 65536;
  J_range : (f_id f < nodes (c_rti c))%nat;
  J_free : connected (c_rti c) (f_id f) = false;
  J_up : Forall (fun u => in_uint16 (fst u) /\ in_int64 (snd u)) (f_upstream f);
  J_down : Forall in_uint16 (f_downstream f);
  J_counts : Z.of_nat (length (f_upstream f)) < 2147483648 /\ Z.of_nat (length (f_downstream f)) < 2147483648;
  J_memory : 10 * Z.of_nat (length (f_upstream f)) + 2 * Z.of_nat (length (f_downstream f)) <= c_memory c;
  J_port : in_uint16 (udp_port (f_mode f));
  J_times : Forall (fun t => in_int64 (fst t) /\ in_int64 (snd t)) (c_times c) }.
(** Both agree about clock synchronization: a federate that waits for the initial
    exchanges waits for as many as the coordinator makes. *)
Definition agree (f : federate) (c : coordinator) : Prop :=
  match f_mode f with
  | ModeOff => True
  | ModeInit => c_status c <> StatusOff /\ f_exchanges f = length (c_times c)
  | ModeOn p => c_status c <> StatusOff /\ f_exchanges f = length (c_times c) /\ 0 < p < 65535
  end.
(** What the coordinator stores about the neighbors is what the federate said. *)
Definition says (f : federate) (i : node_info) : Prop :=
  n_fed i = f_id f /\ n_upstream i = f_upstream f /\ n_downstream i = f_downstream f.
(** The first message after joining. *)
Definition proposal (f : federate) : list Z := MSG_TYPE_TIMESTAMP :: encode_int64 (f_time f).

(** Why a coordinator turns a federate down. *)
Definition prefix (a b : text) : Prop := exists r, b = a ++ r.
Inductive refusal (f : federate) (c : coordinator) : reject -> Prop :=
| wrong_federation : ~ prefix (firstn 255 (f_federation f)) (federation_id (c_rti c)) -> refusal f c FEDERATION_ID_DOES_NOT_MATCH
| out_of_range : prefix (firstn 255 (f_federation f)) (federation_id (c_rti c)) -> (nodes (c_rti c) <= f_id f)%nat -> refusal f c FEDERATE_ID_OUT_OF_RANGE
| in_use : prefix (firstn 255 (f_federation f)) (federation_id (c_rti c)) -> (f_id f < nodes (c_rti c))%nat -> connected (c_rti c) (f_id f) = true ->
    refusal f c FEDERATE_ID_IN_USE.
(** The clock of the federate is synchronized afterwards: both sides have it on. *)
Definition both_on (f : federate) (c : coordinator) (p : Z) : Prop := f_mode f = ModeOn p /\ c_status c = StatusOn.
