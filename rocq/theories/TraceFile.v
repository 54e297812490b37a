(** Model of the trace file: how trace/impl/src/trace_impl.c writes it and how util/tracing/trace_util.c reads it back.

    Bytes are Z in 0..255; [big] is the byte order of the host; pointers and size_t have 8 bytes, int has 4 (the 64-bit
    hosts).  The tools are compiled for the host on which the trace was written. *)
From Verif Require Import Base Net.
Open Scope Z_scope.

(** trace/api/trace.h:31-37 [object_description_t]; the description without its terminating null. *)
Record object := mkObject { o_pointer : Z; o_trigger : Z; o_type : Z; o_description : list Z }.

(** include/core/tracepoint.h:49-59 [trace_record_t] *)
Record entry := mkEntry {
  event_type : Z; pointer : Z; src_id : Z; dst_id : Z; logical_time : Z; microstep : Z; physical_time : Z; trigger : Z; extra_delay : Z }.

(** trace/impl/include/trace_impl.h:4-7, util/tracing/trace_util.h:51 *)
Definition TRACE_BUFFER_CAPACITY : Z := 2048.
Definition TRACE_OBJECT_TABLE_SIZE : nat := 1024.
Definition BUFFER_SIZE : nat := 1024.

(** trace_impl.c:211-220 [lf_tracing_register_trace_event], core/tracepoint.c:50-54 [_lf_register_trace_event]: the table, and
    what is returned (documented in tracepoint.h:86: 1 if successful, 0 if the table is full). *)
Definition register (table : list object) (o : object) : list object * Z :=
  if (TRACE_OBJECT_TABLE_SIZE <=? length table)%nat then (table, 1) else (table ++ [o], 1).

Section File.
Variable big : bool.

(** *** Writing *)

(** trace_impl.c:58-82, one entry of the table *)
Definition write_object (o : object) : list Z :=
  to_mem big 8 (o_pointer o) ++ to_mem big 8 (o_trigger o) ++ to_mem big 4 (o_type o) ++ o_description o ++ [0].
(** trace_impl.c:46-86 [write_trace_header]; the first sizeof(int) bytes of the size_t that counts the objects (line 54). *)
Definition write_header (start : Z) (table : list object) : list Z :=
  to_mem big 8 start ++ firstn 4 (to_mem big 8 (Z.of_nat (length table))) ++ flat_map write_object table.
(** The memory of a record.  core/tracepoint.c:63-80 fills a [trace_record_t] and hands it over as a [trace_record_nodeps_t]
    (trace.h:39-49), in which the microstep has 8 bytes: on 64-bit hosts all other fields are at the same offsets.  [pad] is
    what happens to be in the four bytes after event_type and after microstep. *)
Definition image (r : entry) (pad1 pad2 : list Z) : list Z :=
  to_mem big 4 (event_type r) ++ pad1 ++ to_mem big 8 (pointer r) ++ to_mem big 4 (src_id r) ++ to_mem big 4 (dst_id r) ++
  to_mem big 8 (logical_time r) ++ to_mem big 4 (microstep r) ++ pad2 ++ to_mem big 8 (physical_time r) ++ to_mem big 8 (trigger r) ++ to_mem big 8 (extra_delay r).
(** trace_impl.c:107-121, one buffer; again the first sizeof(int) bytes of a size_t (line 107). *)
Definition write_block (images : list (list Z)) : list Z :=
  firstn 4 (to_mem big 8 (Z.of_nat (length images))) ++ concat images.
Definition write_file (start : Z) (table : list object) (blocks : list (list (list Z))) : list Z :=
  write_header start table ++ flat_map write_block blocks.

(** *** Reading *)

(** fread of one item of [n] bytes. *)
Definition take (n : nat) (s : list Z) : option (list Z * list Z) := if (n <=? length s)%nat then Some (firstn n s, skipn n s) else None.
Definition read_signed (n : nat) (s : list Z) : option (Z * list Z) :=
  match take n s with Some (b, r) => Some (to_signed (8 * Z.of_nat n) (umem big b), r) | None => None end.
Definition read_unsigned (n : nat) (s : list Z) : option (Z * list Z) :=
  match take n s with Some (b, r) => Some (umem big b, r) | None => None end.

(** trace_util.c:246-259: [c] is the character read last, [room] what is left of the buffer but for the null. *)
Fixpoint read_chars (room : nat) (c : Z) (s : list Z) : option (list Z * list Z) :=
  match room with
  | O => Some ([], s)
  | S room =>
    if c =? 0 then Some ([], s)
    else match s with
         | [] => None
         | c' :: s => match read_chars room c' s with Some (l, r) => Some (c :: l, r) | None => None end
         end
  end.
Definition read_description (s : list Z) : option (list Z * list Z) :=
  match s with [] => None | c :: s => read_chars (BUFFER_SIZE - 1) c s end.
(** trace_util.c:225-267, one turn of the loop *)
Definition read_object (s : list Z) : option (object * list Z) :=
  match read_unsigned 8 s with
  | None => None
  | Some (p, s) =>
    match read_unsigned 8 s with
    | None => None
    | Some (t, s) =>
      match read_signed 4 s with
      | None => None
      | Some (ty, s) => match read_description s with Some (d, s) => Some (mkObject p t ty d, s) | None => None end
      end
    end
  end.
Fixpoint read_objects (n : nat) (s : list Z) : option (list object * list Z) :=
  match n with
  | O => Some ([], s)
  | S n =>
    match read_object s with
    | None => None
    | Some (o, s) => match read_objects n s with Some (l, s) => Some (o :: l, s) | None => None end
    end
  end.

(** What the caller gets: the start time, the table and the records; and how it ends: at the end of the file, with an exit
    code, or with undefined behaviour. *)
Inductive ending := EndOfFile | Exit (code : Z) | Undefined.
Record contents := mkContents { c_start : Z; c_table : list object; c_records : list (list Z); c_end : ending }.

(** trace_util.c:202-270 [read_header].  A negative number of objects makes calloc fail; the -1 returned then is a size_t and the
    caller's test for >= 0 succeeds (trace_to_csv.c:486), so that it goes on with no table. *)
Definition read_header (s : list Z) : option (Z * list object * list Z) :=
  match read_signed 8 s with
  | None => None
  | Some (start, s) =>
    match read_signed 4 s with
    | None => None
    | Some (n, s) =>
      if n <? 0 then Some (start, [], s)
      else match read_objects (Z.to_nat n) s with Some (l, s) => Some (start, l, s) | None => None end
    end
  end.

(** sizeof(trace_record_t) *)
Definition RECORD_SIZE : nat := 64.
Fixpoint split_records (n : nat) (s : list Z) : list (list Z) :=
  match n with O => [] | S n => firstn RECORD_SIZE s :: split_records n (skipn RECORD_SIZE s) end.

(** trace_util.c:272-294 [read_trace], called until it returns 0 (trace_to_csv.c:494).  A negative length is converted to a huge
    size_t: fread may write past the array. *)
Fixpoint read_blocks (fuel : nat) (s : list Z) : list (list Z) * ending :=
  match fuel with
  | O => ([], EndOfFile)
  | S fuel =>
    match read_signed 4 s with
    | None => ([], EndOfFile)
    | Some (n, s) =>
      if TRACE_BUFFER_CAPACITY <? n then ([], Exit 4)
      else if n <? 0 then ([], Undefined)
      else if n =? 0 then ([], EndOfFile)
      else match take (Z.to_nat n * RECORD_SIZE) s with
           | None => ([], Exit 5)
           | Some (b, s) => let (l, e) := read_blocks fuel s in (split_records (Z.to_nat n) b ++ l, e)
           end
    end
  end.
(** trace_to_csv.c:486-500, trace_to_chrome.c:438-444 alike: the header, then all blocks. *)
Definition read_file (s : list Z) : contents :=
  match read_header s with
  | None => mkContents 0 [] [] (Exit 1)
  | Some (start, table, s) => let (l, e) := read_blocks (S (length s)) s in mkContents start table l e
  end.

(** The fields of a record in memory. *)
Definition ufield (b : list Z) (off n : nat) : Z := umem big (firstn n (skipn off b)).
Definition sfield (b : list Z) (off n : nat) : Z := to_signed (8 * Z.of_nat n) (ufield b off n).
Definition fields (b : list Z) : entry :=
  mkEntry (sfield b 0 4) (ufield b 8 8) (sfield b 16 4) (sfield b 20 4) (sfield b 24 8) (ufield b 32 4) (sfield b 40 8) (ufield b 48 8) (sfield b 56 8).
End File.
