(** Model of the network layer: integer encoding, socket transfer loops, message headers, forwarding of
    timed messages by the coordinator, agreement on the start time.

    A byte is a [Z] between 0 and 255, a buffer a list of bytes. *)
From Verif Require Import Base Tag.

Definition byte_of (z : Z) : Z := z mod 256.   (* conversion to unsigned char *)

(* ------------------------------------------------------------------ *)
(** ** Encoding *)

(** core/federated/network/net_util.c:228-236 [encode_int64].  [0xffLL << 56] is not representable in
    [long long]; GCC and clang define it as the two's complement bit pattern, which is what [wrap64] gives,
    and [>>] of a negative number is arithmetic.  (ISO C leaves the first undefined; see DESIGN.md.) *)
Definition encode_int64_byte (data : Z) (i : Z) : Z :=
  let shift := 8 * i in
  byte_of (Z.shiftr (Z.land data (wrap64 (Z.shiftl 255 shift))) shift).
Definition encode_int64 (data : Z) : list Z := map (encode_int64_byte data) [0; 1; 2; 3; 4; 5; 6; 7].

(** net_util.c:238-245 [encode_int32]: the last mask is [(int32_t)0xff000000] = -2^24. *)
Definition encode_int32 (data : Z) : list Z :=
  [byte_of (Z.land data 0xff); byte_of (Z.shiftr (Z.land data 0xff00) 8);
   byte_of (Z.shiftr (Z.land data 0xff0000) 16); byte_of (Z.shiftr (Z.land data (-16777216)) 24)].

(** net_util.c:247-254 [encode_uint32]. *)
Definition encode_uint32 (data : Z) : list Z :=
  [byte_of (Z.land data 0xff); byte_of (Z.shiftr (Z.land data 0xff00) 8);
   byte_of (Z.shiftr (Z.land data 0xff0000) 16); byte_of (Z.shiftr (Z.land data 0xff000000) 24)].

(** net_util.c:256-261 [encode_uint16]. *)
Definition encode_uint16 (data : Z) : list Z :=
  [byte_of (Z.land data 0xff); byte_of (Z.shiftr (Z.land data 0xff00) 8)].

(* ------------------------------------------------------------------ *)
(** ** Objects in memory.  The object representation of an [n]-byte integer on a little- or big-endian host;
    the unions of net_util.c read and write it. *)
Fixpoint to_mem_le (n : nat) (v : Z) : list Z :=
  match n with O => [] | S n => v mod 256 :: to_mem_le n (v / 256) end.
Fixpoint from_mem_le (c : list Z) : Z :=
  match c with [] => 0 | b :: c => b + 256 * from_mem_le c end.
Definition to_mem (big : bool) (n : nat) (v : Z) : list Z :=
  if big then rev (to_mem_le n v) else to_mem_le n v.
Definition umem (big : bool) (c : list Z) : Z := from_mem_le (if big then rev c else c).
(** Signed reading of [bits] bits. *)
Definition to_signed (bits v : Z) : Z := if v <? 2 ^ (bits - 1) then v else v - 2 ^ bits.

(** net_util.c:263-275 [host_is_big_endian]: looks at the last byte of the object 1. *)
Definition host_is_big_endian (big : bool) : bool := nth 3 (to_mem big 4 1) 0 =? 1.

(** One exchange [c = x[i]; x[i] = x[j]; x[j] = c]. *)
Fixpoint put (i : nat) (b : Z) (l : list Z) : list Z :=
  match i, l with _, [] => [] | O, _ :: l => b :: l | S i, x :: l => x :: put i b l end.
Definition xchg (i j : nat) (l : list Z) : list Z := put j (nth i l 0) (put i (nth j l 0) l).

(** net_util.c:277-366 [swap_bytes_if_big_endian_*]. *)
Definition swap_int32 (big : bool) (src : Z) : Z :=
  if host_is_big_endian big then to_signed 32 (umem big (xchg 1 2 (xchg 0 3 (to_mem big 4 src)))) else src.
Definition swap_uint32 (big : bool) (src : Z) : Z :=
  if host_is_big_endian big then umem big (xchg 1 2 (xchg 0 3 (to_mem big 4 src))) else src.
Definition swap_int64 (big : bool) (src : Z) : Z :=
  if host_is_big_endian big
  then to_signed 64 (umem big (xchg 3 4 (xchg 2 5 (xchg 1 6 (xchg 0 7 (to_mem big 8 src)))))) else src.
Definition swap_uint16 (big : bool) (src : Z) : Z :=
  if host_is_big_endian big then umem big (xchg 0 1 (to_mem big 2 src)) else src.

(** Reading [n] bytes at offset [off]; beyond the end of the buffer it is undefined. *)
Definition bytes_at (buf : list Z) (off n : nat) : res (list Z) :=
  if (off + n <=? length buf)%nat then Ok (firstn n (skipn off buf)) else UB.

(** net_util.c:368-406 [extract_*]. *)
Definition extract_int32 (big : bool) (buf : list Z) (off : nat) : res Z :=
  do! c <- bytes_at buf off 4; Ok (swap_int32 big (to_signed 32 (umem big c))).
Definition extract_uint32 (big : bool) (buf : list Z) (off : nat) : res Z :=
  do! c <- bytes_at buf off 4; Ok (swap_uint32 big (umem big c)).
Definition extract_int64 (big : bool) (buf : list Z) (off : nat) : res Z :=
  do! c <- bytes_at buf off 8; Ok (swap_int64 big (to_signed 64 (umem big c))).
Definition extract_uint16 (big : bool) (buf : list Z) (off : nat) : res Z :=
  do! c <- bytes_at buf off 2; Ok (swap_uint16 big (umem big c)).

(* ------------------------------------------------------------------ *)
(** ** Messages *)

(** net_util.c:435-446 [extract_tag], [encode_tag]. *)
Definition extract_tag (big : bool) (buf : list Z) (off : nat) : res tag :=
  do! t <- extract_int64 big buf off; do! m <- extract_uint32 big buf (off + 8); Ok (mkTag t m).
Definition encode_tag (g : tag) : list Z := encode_int64 (ttime g) ++ encode_uint32 (tmicro g).

(** [(int32_t)microstep], implementation-defined, the usual wrap. *)
Definition to_int32 (m : Z) : Z := to_signed 32 (m mod two32).
(** include/core/federated/network/net_common.h:481-520 [ENCODE_STOP_REQUEST], [_REPLY], [_GRANTED] and
    core/federated/RTI/rti_remote.c:193-196, 226-229 (grants): type byte, time, microstep as [int32_t]. *)
Definition encode_tag_message (type : Z) (g : tag) : list Z :=
  byte_of type :: encode_int64 (ttime g) ++ encode_int32 (to_int32 (tmicro g)).
(** core/federated/federate.c:128-134 [send_tag]. *)
Definition encode_send_tag (type : Z) (g : tag) : list Z := byte_of type :: encode_tag g.

(** net_util.c:410-425 [extract_header]. *)
Record header := mkHeader { h_port : Z; h_fed : Z; h_length : Z }.
Definition extract_header (big : bool) (buf : list Z) (off : nat) : res header :=
  do! p <- extract_uint16 big buf off; do! f <- extract_uint16 big buf (off + 2);
  do! n <- extract_uint32 big buf (off + 4); Ok (mkHeader p f n).
(** net_util.c:427-433 [extract_timed_header]. *)
Definition extract_timed_header (big : bool) (buf : list Z) (off : nat) : res (header * tag) :=
  do! h <- extract_header big buf off; do! g <- extract_tag big buf (off + 8); Ok (h, g).
(** federate.c:2597-2640 [lf_send_tagged_message], the header.  [length] is cut to 32 bits. *)
Definition encode_timed_header (type port fed length : Z) (g : tag) : list Z :=
  byte_of type :: encode_uint16 (port mod 65536) ++ encode_uint16 (fed mod 65536) ++ encode_uint32 (length mod two32) ++ encode_tag g.
Definition MSG_TYPE_TAGGED_MESSAGE : Z := 5.
(** federate.c:2507-2530: the port absent message. *)
Definition encode_port_absent (type port fed : Z) (g : tag) : list Z :=
  byte_of type :: encode_uint16 (port mod 65536) ++ encode_uint16 (fed mod 65536) ++ encode_tag g.
(** rti_remote.c:284-293 and federate.c:701-712: how it is read. *)
Definition extract_port_absent (big : bool) (buf : list Z) (off : nat) : res (Z * Z * tag) :=
  do! p <- extract_uint16 big buf off; do! f <- extract_uint16 big buf (off + 2); do! g <- extract_tag big buf (off + 4); Ok (p, f, g).

(* ------------------------------------------------------------------ *)
(** ** Socket loops *)

(** What one [read] may do when [k] bytes are asked for: deliver between 1 and [k] of the bytes that the peer
    sent ([RSome n] delivers [n], cut to that range), fail with EAGAIN, EWOULDBLOCK or EINTR, fail otherwise,
    or report the end of the stream. *)
Inductive rd_event := RSome (n : nat) | RRetry | RErr | REof.
Inductive io_result := IoOk | IoErr | IoEof | IoBlocked.

(** net_util.c:91-117 [read_from_socket].  [stream]: the bytes the peer sends; [want]: bytes still wanted;
    [buf]: bytes stored so far.  The events are consumed one per call of [read]; when they run out, the call
    is still waiting. *)
Fixpoint read_loop (evs : list rd_event) (stream : list Z) (want : nat) (buf : list Z) : io_result * list Z * list Z :=
  match want with
  | O => (IoOk, buf, stream)
  | S _ =>
    match evs with
    | [] => (IoBlocked, buf, stream)
    | RRetry :: evs => read_loop evs stream want buf
    | RErr :: _ => (IoErr, buf, stream)
    | REof :: _ => (IoEof, buf, stream)
    | RSome n :: evs =>
      let n := Nat.min (Nat.max 1 n) (Nat.min want (length stream)) in
      match n with
      | O => (IoBlocked, buf, stream)   (* nothing sent yet: the call blocks *)
      | S _ => read_loop evs (skipn n stream) (want - n) (buf ++ firstn n stream)
      end
    end
  end.
Definition ssize_neg (n : Z) : bool := LLONG_MAX <? n.   (* (ssize_t)n < 0 *)
Definition read_from_socket (open : bool) (n : Z) (evs : list rd_event) (stream : list Z) : io_result * list Z * list Z :=
  if negb open then (IoErr, [], stream)
  else if ssize_neg n then (IoOk, [], stream)      (* the loop condition is false at once *)
  else read_loop evs stream (Z.to_nat n) [].

(** Lines 119-132 [read_from_socket_close_on_error]: any failure closes the socket. *)
Definition read_close_on_error (open : bool) (n : Z) (evs : list rd_event) (stream : list Z) : bool * bool * list Z * list Z :=
  match read_from_socket open n evs stream with
  | (IoOk, buf, rest) => (true, open, buf, rest)
  | (_, buf, rest) => (false, false, buf, rest)
  end.

(** What one [write] of [k] bytes may do: accept between 0 and [k] bytes, fail with EAGAIN and the like, or
    fail otherwise. *)
Inductive wr_event := WSome (n : nat) | WRetry | WErr.
(** Lines 163-187 [write_to_socket]: [out] is what the operating system has accepted, in order. *)
Fixpoint write_loop (evs : list wr_event) (todo out : list Z) : io_result * list Z :=
  match todo with
  | [] => (IoOk, out)
  | _ :: _ =>
    match evs with
    | [] => (IoBlocked, out)
    | WRetry :: evs => write_loop evs todo out
    | WErr :: _ => (IoErr, out)
    | WSome n :: evs => let n := Nat.min n (length todo) in write_loop evs (skipn n todo) (out ++ firstn n todo)
    end
  end.
Definition write_to_socket (open : bool) (n : Z) (evs : list wr_event) (buffer : list Z) : res (io_result * list Z) :=
  if negb open then Ok (IoErr, [])
  else if ssize_neg n then Ok (IoOk, [])
  else if Z.of_nat (length buffer) <? n then UB            (* reads past the end of the buffer *)
  else Ok (write_loop evs (firstn (Z.to_nat n) buffer) []).

(* ------------------------------------------------------------------ *)
(** ** Forwarding a timed message *)

(** net_common.h:199. *)
Definition FED_COM_BUFFER_SIZE : nat := 256.
(** rti_remote.c:343. *)
Definition header_size : nat := 21.

(** Storing bytes into the fixed buffer; past its end it is undefined. *)
Definition store_at (buf : list Z) (off : nat) (bs : list Z) : res (list Z) :=
  if (off + length bs <=? length buf)%nat then Ok (firstn off buf ++ bs ++ skipn (off + length bs) buf) else UB.

(** A complete read of [n] bytes into the buffer (lines 134-151: the coordinator exits if the read fails, so
    only complete reads matter): [None] means that the peer did not send enough. *)
Definition recv (buf : list Z) (off n : nat) (stream : list Z) : res (option (list Z * list Z)) :=
  if (n <=? length stream)%nat
  then (do! b <- store_at buf off (firstn n stream); Ok (Some (b, skipn n stream)))
  else Ok None.

(** rti_remote.c:435-458 (and 402-413 when the message is dropped: [drop]): the remaining chunks. *)
Fixpoint chunks (fuel : nat) (drop : bool) (buf stream out : list Z) (left : nat) : res (option (list Z * list Z)) :=
  match left with
  | O => Ok (Some (stream, out))
  | S _ =>
    match fuel with
    | O => Ok None
    | S fuel =>
      let n := if (FED_COM_BUFFER_SIZE <? left)%nat then FED_COM_BUFFER_SIZE else left in
      do! r <- recv buf 0 n stream;
      match r with
      | None => Ok None
      | Some (buf, stream) => chunks fuel drop buf stream (if drop then out else out ++ firstn n buf) (left - n)
      end
    end
  end.

(** Result: what the sender's stream still holds, what was written to the destination, and the tag recorded
    for it. *)
Record forwarded := mkFwd { fw_rest : list Z; fw_out : list Z; fw_fed : Z; fw_tag : tag }.

(** rti_remote.c:342-478 [handle_timed_message], the transfer.  [buf] already holds the type byte; [connected f]
    tells whether federate [f] is still connected; [n_feds] is the number of federates: the identifier in the
    message is not checked against it before it is used as an index. *)
Definition forward_timed (big : bool) (n_feds : Z) (connected : Z -> bool) (buf stream : list Z) : res (option forwarded) :=
  do! r <- recv buf 1 (header_size - 1) stream;
  match r with
  | None => Ok None
  | Some (buf, stream) =>
    do! hg <- extract_timed_header big buf 1;
    let '(h, g) := hg in
    let length := Z.to_nat (h_length h) in
    let n := if (FED_COM_BUFFER_SIZE - header_size <? length)%nat then (FED_COM_BUFFER_SIZE - header_size)%nat else length in
    do! r <- recv buf header_size n stream;
    match r with
    | None => Ok None
    | Some (buf, stream) =>
      if n_feds <=? h_fed h then UB
      else
        let drop := negb (connected (h_fed h)) in
        let out := if drop then [] else firstn (header_size + n) buf in
        do! c <- chunks length drop buf stream out (length - n);
        match c with
        | None => Ok None
        | Some (stream, out) => Ok (Some (mkFwd stream out (h_fed h) g))
        end
    end
  end.

(* ------------------------------------------------------------------ *)
(** ** The start time *)

(** net_common.h:259. *)
Definition DELAY_START : Z := 1000000000.

(** rti_remote.c:780-837 [handle_timestamp], one thread per federate: first the locked section that records
    the proposal (lines 793-809), then, once every federate has proposed, the reply (811-826).  The
    coordinator starts with [max_start_time = 0] (line 1727). *)
Record rti_start := mkStart { rs_count : nat; rs_max : Z; rs_proposed : list nat; rs_replies : list (nat * list Z) }.
Definition start_init : rti_start := mkStart 0 0 [] [].

(** Line 786: the eight bytes as they came. *)
Definition read_timestamp (big : bool) (bytes : list Z) : res Z :=
  do! c <- bytes_at bytes 0 8; Ok (swap_int64 big (to_signed 64 (umem big c))).
(** Line 819: the bytes of the reply after the type byte. *)
Definition start_reply (big : bool) (max : Z) : res (list Z) :=
  do! s <- c_add64 max DELAY_START; Ok (encode_int64 (swap_int64 big s)).

Inductive start_op := Propose (f : nat) (bytes : list Z) | Reply (f : nat).
Definition start_step (big : bool) (n : nat) (s : rti_start) (o : start_op) : res rti_start :=
  match o with
  | Propose f bytes =>
    do! t <- read_timestamp big bytes;
    Ok (mkStart (S (rs_count s)) (if rs_max s <? t then t else rs_max s) (f :: rs_proposed s) (rs_replies s))
  | Reply f =>
    if (existsb (Nat.eqb f) (rs_proposed s) && (n <=? rs_count s)%nat)%bool
    then (do! r <- start_reply big (rs_max s); Ok (mkStart (rs_count s) (rs_max s) (rs_proposed s) ((f, r) :: rs_replies s)))
    else Ok s                                              (* the thread is not there yet *)
  end.
Fixpoint start_run (big : bool) (n : nat) (s : rti_start) (l : list start_op) : res rti_start :=
  match l with [] => Ok s | o :: l => do! s' <- start_step big n s o; start_run big n s' l end.
