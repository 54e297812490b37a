(** Model of the trace library, trace/impl/src/trace_impl.c:93-270.

    Threads are identified by what lf_thread_id returns: 0, 1, ... for the threads
    of the runtime, -1 for threads made by the user
    (low_level_platform/impl/src/lf_platform_util.c:20-24).  A buffer is the list
    of the records in it, in order; its length is _lf_trace_buffer_size.  Calls
    are atomic here: a worker writes only its own buffer, the file is written
    under the mutex, and stop_trace, which reads all buffers, is called when the
    workers have ended (core/reactor_common.c:1132-1222). *)
From Verif Require Import Base.
Open Scope Z_scope.

(** trace_impl.h:4 *)
Definition CAPACITY : nat := 2048.
Definition record := Z.

(** What happens to the file during a flush: everything is written; the header
    cannot be written; the length cannot be written; only the first records can
    be written. *)
Inductive io := IoOk | HeaderFails | LengthFails | RecordsFail (k : nat).

Record trace := mkTrace {
  buffers : Z -> list record;            (* _lf_trace_buffer, _lf_trace_buffer_size *)
  n_buffers : Z;                         (* _lf_number_of_trace_buffers *)
  stopped : bool;                        (* _lf_trace_stop *)
  file_open : bool;                      (* _lf_trace_file != NULL *)
  header : bool;                         (* _lf_trace_header_written *)
  written : list (Z * list record) }.    (* the blocks in the file; the thread is
                                            not stored there but in each record *)

(** trace_impl.c:139-177, 254-270: [opened] tells whether fopen succeeded. *)
Definition trace0 (n : Z) (opened : bool) : trace := mkTrace (fun _ => []) n false opened false [].

Definition set_buffer (t : trace) (w : Z) (l : list record) : trace :=
  mkTrace (fun v => if v =? w then l else buffers t v) (n_buffers t) (stopped t) (file_open t) (header t) (written t).

(** trace_impl.c:93-124 [flush_trace_locked] *)
Definition flush (t : trace) (w : Z) (o : io) : trace :=
  if negb (stopped t) && file_open t && negb (match buffers t w with [] => true | _ => false end) then
    match o, header t with
    | HeaderFails, false =>
        (* lines 98-103: the macro on lines 13-19 closes the file; the buffer is kept *)
        mkTrace (buffers t) (n_buffers t) (stopped t) false false (written t)
    | LengthFails, _ =>
        set_buffer (mkTrace (buffers t) (n_buffers t) (stopped t) false true (written t)) w []
    | RecordsFail k, _ =>
        set_buffer (mkTrace (buffers t) (n_buffers t) (stopped t)
                      (Nat.leb (length (buffers t w)) k) true (written t ++ [(w, firstn k (buffers t w))])) w []
    | _, _ =>
        set_buffer (mkTrace (buffers t) (n_buffers t) (stopped t) true true (written t ++ [(w, buffers t w)])) w []
    end
  else t.

Inductive outcome := Go (t : trace) | Exited | OutOfBounds.

(** trace_impl.c:222-252 [lf_tracing_tracepoint].  flush_trace on line 240 locks
    the mutex, which a user thread holds already since line 229 (mutexes are
    recursive, lf_POSIX_threads_support.c:36).  Reading the size or writing the buffer
    of a thread outside -1..n-1, or writing past the capacity, is out of bounds. *)
Definition tracepoint (t : trace) (tid : Z) (r : record) (o : io) : outcome :=
  if n_buffers t <? tid then Exited
  else if (tid <? -1) || (n_buffers t <=? tid) then OutOfBounds
  else
    let full := Nat.leb CAPACITY (length (buffers t tid)) in
    let t := if full then flush t tid o else t in
    if (length (buffers t tid) <? CAPACITY)%nat then Go (set_buffer t tid (buffers t tid ++ [r])) else OutOfBounds.

(** trace_impl.c:179-203 [stop_trace_locked]: flush all buffers, close the file.
    [o w] is what happens to the file at the flush of buffer [w]. *)
Definition all_buffers (n : Z) : list Z := map (fun k => Z.of_nat k - 1) (seq 0 (Z.to_nat (n + 1))).
Definition stop (t : trace) (o : Z -> io) : trace :=
  if stopped t then t
  else
    let t := fold_left (fun t w => flush t w (o w)) (all_buffers (n_buffers t)) t in
    mkTrace (buffers t) (n_buffers t) true false (header t) (written t).

Inductive op := Tracepoint (tid : Z) (r : record) (o : io) | Stop (o : Z -> io).
Definition step (t : trace) (op : op) : outcome :=
  match op with Tracepoint tid r o => tracepoint t tid r o | Stop o => Go (stop t o) end.
Fixpoint run (t : trace) (l : list op) : outcome :=
  match l with
  | [] => Go t
  | o :: l => match step t o with Go t => run t l | x => x end
  end.
