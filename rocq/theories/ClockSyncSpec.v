(** The physical situation of one exchange of clock-synchronization messages. *)
From Verif Require Import Base ClockSync.

(** The RTI sends T1 when its clock reads [at_rti]; the message takes [d1]; the
    clock of the federate is [behind] the clock of the RTI by that amount
    (negative: ahead); the federate needs [local] to reply, and the reply takes
    [d2] until the RTI reads its clock again. *)
Record exchange := mkExchange { at_rti : Z; d1 : Z; d2 : Z; local : Z; behind : Z }.

Definition ex_t1 (e : exchange) : Z := at_rti e.
Definition ex_t2 (e : exchange) : Z := at_rti e + d1 e - behind e.
Definition ex_t3 (e : exchange) : Z := ex_t2 e + local e.
Definition ex_t4 (e : exchange) : Z := at_rti e + d1 e + local e + d2 e.

(** Times in the range of some 100 years, so that no difference overflows. *)
Definition moderate (z : Z) : Prop := - 2 ^ 60 < z < 2 ^ 60.
Definition exchange_ok (e : exchange) : Prop :=
  moderate (at_rti e) /\ 0 <= d1 e < 2 ^ 58 /\ 0 <= d2 e < 2 ^ 58 /\ 0 <= local e < 2 ^ 58 /\
  - 2 ^ 58 < behind e < 2 ^ 58.
