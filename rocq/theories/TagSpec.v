(** Specification vocabulary for tags, independent of the code's comparison
    function and of its arithmetic. *)
From Verif Require Import Base Tag.

(** Lexicographic order on (time, microstep). *)
Definition tag_lt (a b : tag) : Prop :=
  ttime a < ttime b \/ (ttime a = ttime b /\ tmicro a < tmicro b).
Definition tag_le (a b : tag) : Prop :=
  ttime a < ttime b \/ (ttime a = ttime b /\ tmicro a <= tmicro b).

(** Saturating sum: clamp the exact sum to the representable range. *)
Definition clamp64 (z : Z) : Z := Z.max LLONG_MIN (Z.min LLONG_MAX z).
Definition sat_sum (a b : Z) : Z :=
  if (a =? LLONG_MIN) || (b =? LLONG_MIN) then LLONG_MIN
  else if (a =? LLONG_MAX) || (b =? LLONG_MAX) then LLONG_MAX
  else clamp64 (a + b).

(** A delay as used on connections: a non-negative tag. *)
Definition delay_ok (d : tag) : Prop := tag_ok d /\ 0 <= ttime d.
