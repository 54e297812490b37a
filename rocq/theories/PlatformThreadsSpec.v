(** What thread priorities and ids promise. *)
From Verif Require Import Base PlatformThreads.

(** [f] maps the priorities 0..99 into the range between [least] and [most] (of which either
    may be the greater number), the least to the least and the most to the most urgent one,
    in order. *)
Definition ordered_map (least most : Z) (f : Z -> res Z) : Prop :=
  f 0 = Ok least /\ f 99 = Ok most /\
  (forall p, 0 <= p <= 99 -> exists v, f p = Ok v /\ Z.min least most <= v <= Z.max least most) /\
  (forall p q u v, 0 <= p <= q -> q <= 99 -> f p = Ok u -> f q = Ok v ->
     if least <=? most then u <= v else v <= u).

(** Different priorities stay different. *)
Definition distinct_map (f : Z -> res Z) : Prop :=
  forall p q u, 0 <= p <= 99 -> 0 <= q <= 99 -> f p = Ok u -> f q = Ok u -> p = q.

(** Every priority in the range can be reached. *)
Definition onto_map (least most : Z) (f : Z -> res Z) : Prop :=
  forall v, Z.min least most <= v <= Z.max least most -> exists p, 0 <= p <= 99 /\ f p = Ok v.

(** Ranges for which the arithmetic does not overflow. *)
Definition ranges (lo hi : Z) : Prop :=
  -2147483648 <= lo <= 2147483647 /\ -2147483648 <= hi <= 2147483647 /\
  99 * Z.abs (hi - lo) <= 2147483647.
