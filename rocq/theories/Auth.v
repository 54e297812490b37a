(** Model of the authentication of federates with keyed hashes
    (core/federated/federate.c:860-937, core/federated/RTI/rti_remote.c:1469-1536).
    Simplification: the hash (HMAC with SHA-256 of OpenSSL) is a function argument,
    and so are the random nonces; a hash that cannot be computed is not modelled. *)
From Verif Require Import Base CText Net Admission Duet Join.
Local Open Scope Z_scope.

(** include/core/federated/network/net_common.h:322, 336, 348, 353, 358, 691 *)
Definition MSG_TYPE_RTI_RESPONSE : Z := 101.
Definition MSG_TYPE_FED_RESPONSE : Z := 102.
Definition NONCE_LENGTH : nat := 8.
Definition HMAC_LENGTH : nat := 32.
Definition HMAC_DOES_NOT_MATCH : Z := 6.
Definition hash := list Z -> list Z -> list Z.   (* key, message *)

(** federate.c:881-882, rti_remote.c:1486: the key *)
Definition key (federation : text) : list Z := firstn 255 federation.
(** memcmp(...) == 0 on lists of the same length *)
Fixpoint same_bytes (a b : list Z) : bool :=
  match a, b with
  | [], [] => true
  | x :: a, y :: b => (x =? y) && same_bytes a b
  | _, _ => false
  end.

(** federate.c:1960-1968: authentication failed; [given]: the port was given *)
Definition fed_fails (given : bool) : proc fed_end := Over true (if given then FedExits else Again None).
(** federate.c:866-936, then [next] *)
Definition fed_auth (h : hash) (nonce : list Z) (given : bool) (f : federate) (next : proc fed_end) : proc fed_end :=
  Send (MSG_TYPE_FED_NONCE :: encode_uint16 (Z.of_nat (f_id f)) ++ nonce)
    (Recv (1 + NONCE_LENGTH + HMAC_LENGTH) (fed_fails given) (fun received =>
       if negb (nth 0 received 0 =? MSG_TYPE_RTI_RESPONSE) then fed_fails given
       else
         let tag := h (key (f_federation f)) (MSG_TYPE_RTI_RESPONSE :: encode_uint16 (Z.of_nat (f_id f)) ++ nonce) in
         if same_bytes (skipn (1 + NONCE_LENGTH) received) tag then
           Send (MSG_TYPE_FED_RESPONSE :: h (key (f_federation f)) (MSG_TYPE_FED_RESPONSE :: firstn NONCE_LENGTH (skipn 1 received))) next
         else Send [MSG_TYPE_REJECT; HMAC_DOES_NOT_MATCH] (fed_fails given))).
(** rti_remote.c:1476-1535, then [next] (1561-1571) *)
Definition rti_auth (h : hash) (nonce : list Z) (c : coordinator) (next : proc rti_end) : proc rti_end :=
  Recv (1 + 2 + NONCE_LENGTH) (Over true RtiExits) (fun b =>
    if negb (nth 0 b 0 =? MSG_TYPE_FED_NONCE) then Over true RtiExits
    else
      let tag := h (key (federation_id (c_rti c))) (MSG_TYPE_RTI_RESPONSE :: skipn 1 b) in
      Send (MSG_TYPE_RTI_RESPONSE :: nonce ++ tag)
        (Recv (1 + HMAC_LENGTH) (Over true RtiExits) (fun received =>
           if negb (nth 0 received 0 =? MSG_TYPE_FED_RESPONSE) then Over true RtiExits
           else if same_bytes (skipn 1 received) (h (key (federation_id (c_rti c))) (MSG_TYPE_FED_RESPONSE :: nonce)) then next
           else Send [MSG_TYPE_REJECT; HMAC_DOES_NOT_MATCH] (Over true Dropped)))).
(** The two programs with authentication. *)
Definition fed_join_auth (h : hash) (nonce : list Z) (given : bool) (f : federate) : proc fed_end := fed_auth h nonce given f (fed_join f).
Definition rti_join_auth (h : hash) (nonce : list Z) (c : coordinator) : proc rti_end := rti_auth h nonce c (rti_join c).
