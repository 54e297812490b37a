(** Model of core/tag.c and tag/api/tag.h: tags and tag arithmetic. *)
From Verif Require Import Base.

(** tag/api/tag.h:33-46 *)
Definition NEVER : Z := LLONG_MIN.
Definition FOREVER : Z := LLONG_MAX.
Definition NEVER_MICROSTEP : Z := 0.
Definition FOREVER_MICROSTEP : Z := UINT_MAX.

(** tag/api/tag.h:78-81 [tag_t]; the field ranges (int64_t, uint32_t) are the
    predicate [tag_ok] below. *)
Record tag := mkTag { ttime : Z; tmicro : Z }.

(** tag/api/tag.h:37-46 *)
Definition NEVER_TAG : tag := mkTag NEVER NEVER_MICROSTEP.
Definition FOREVER_TAG : tag := mkTag FOREVER FOREVER_MICROSTEP.

(** tag/api/tag.h:62-81: representable values of [tag_t]. *)
Definition tag_ok (t : tag) : Prop := in_int64 (ttime t) /\ in_uint32 (tmicro t).
Definition tag_okb (t : tag) : bool := in_int64b (ttime t) && in_uint32b (tmicro t).

(** core/tag.c:42-59 [lf_time_add], ISO C reading: the sum on line 49 is a signed
    addition, undefined when it overflows. *)
Definition time_add (a b : Z) : res Z :=
  if (a =? NEVER) || (b =? NEVER) then Ok NEVER
  else if (a =? FOREVER) || (b =? FOREVER) then Ok FOREVER
  else
    do! r <- c_add64 a b;
    if (r <? a) && (0 <? b) then Ok FOREVER
    else if (a <? r) && (b <? 0) then Ok NEVER
    else Ok r.

(** core/tag.c:42-59 [lf_time_add], with line 49 read as two's-complement
    wrap-around addition: the reading the checks on lines 51-57 are written for
    (it is what a compiler gives with -fwrapv). *)
Definition time_add_wrap (a b : Z) : Z :=
  if (a =? NEVER) || (b =? NEVER) then NEVER
  else if (a =? FOREVER) || (b =? FOREVER) then FOREVER
  else
    let r := wrap64 (a + b) in
    if (r <? a) && (0 <? b) then FOREVER
    else if (a <? r) && (b <? 0) then NEVER
    else r.

(** core/tag.c:61-83 [lf_tag_add] (two's-complement reading of [lf_time_add]).
    Microsteps are uint32_t, so the sum on line 74 wraps modulo 2^32. *)
Definition tag_add (a b : tag) : tag :=
  let r := time_add_wrap (ttime a) (ttime b) in
  if r =? FOREVER then FOREVER_TAG
  else if r =? NEVER then NEVER_TAG
  else
    let am := if 0 <? ttime b then 0 else tmicro a in
    let m := (am + tmicro b) mod two32 in
    if m <? am then FOREVER_TAG else mkTag r m.

(** core/tag.c:85-97 [lf_tag_compare] *)
Definition tag_compare (a b : tag) : Z :=
  if ttime a <? ttime b then -1
  else if ttime b <? ttime a then 1
  else if tmicro a <? tmicro b then -1
  else if tmicro b <? tmicro a then 1
  else 0.

(** core/tag.c:99-116 [lf_delay_tag].  Line 103 cannot overflow because the
    interval is non-negative there; line 111 cannot because of line 103; the
    microstep increment on line 109 wraps modulo 2^32. *)
Definition delay_tag (t : tag) (d : Z) : tag :=
  if (ttime t =? NEVER) || (d <? 0) then t
  else if FOREVER - d <=? ttime t then FOREVER_TAG
  else if d =? 0 then mkTag (ttime t) ((tmicro t + 1) mod two32)
  else mkTag (ttime t + d) 0.

(** core/tag.c:118-125 [lf_delay_strict].  Line 121 cannot underflow because the
    time is not NEVER there. *)
Definition delay_strict (t : tag) (d : Z) : tag :=
  let r := delay_tag t d in
  if negb (d =? 0) && negb (d =? NEVER) && negb (d =? FOREVER)
     && negb (ttime r =? NEVER) && negb (ttime r =? FOREVER)
  then mkTag (ttime r - 1) UINT_MAX
  else r.
