(** What a trace file may contain (C75). *)
From Verif Require Import Base Net Trace TraceFile.
Open Scope Z_scope.

Definition byte_ok (b : Z) : Prop := 0 <= b < 256.
Definition int64_ok (z : Z) : Prop := - 2 ^ 63 <= z < 2 ^ 63.
Definition int32_ok (z : Z) : Prop := - 2 ^ 31 <= z < 2 ^ 31.
Definition address_ok (z : Z) : Prop := 0 <= z < 2 ^ 64.

(** A description is a C string of at most 1023 characters. *)
Definition object_ok (o : object) : Prop :=
  address_ok (o_pointer o) /\ address_ok (o_trigger o) /\ int32_ok (o_type o) /\ Forall (fun c => byte_ok c /\ c <> 0) (o_description o) /\ (length (o_description o) <= 1023)%nat.
Definition entry_ok (r : entry) : Prop :=
  int32_ok (event_type r) /\ address_ok (pointer r) /\ int32_ok (src_id r) /\ int32_ok (dst_id r) /\ int64_ok (logical_time r) /\
  0 <= microstep r < 2 ^ 32 /\ int64_ok (physical_time r) /\ address_ok (trigger r) /\ int64_ok (extra_delay r).
(** A block holds the records of a buffer that is not empty; a record takes 64 bytes. *)
Definition block_ok (b : list (list Z)) : Prop := (1 <= length b <= 2048)%nat /\ Forall (fun r => length r = 64%nat) b.
Definition padding (p : list Z) : Prop := length p = 4%nat /\ Forall byte_ok p.

Definition prefix {A} (l1 l2 : list A) : Prop := exists r, l2 = l1 ++ r.

(** The file that a program has written when it has traced as in Trace.v: [img] gives the memory of a record; nothing is
    written before the first buffer is (trace_impl.c:94-103). *)
Definition file_of (big : bool) (start : Z) (table : list object) (img : record -> list Z) (t : trace) : list Z :=
  if header t then write_file big start table (map (fun b => map img (snd b)) (written t)) else [].
