(** Model of clock synchronization in a federate, core/federated/clock-sync.c
    (built with LF_CLOCK_SYNC >= LF_CLOCK_SYNC_INIT and with statistics, the
    default). *)
From Verif Require Import Base Tag.

(** clock-sync.h:52-72 *)
Definition EXCHANGES : Z := 10.        (* _LF_CLOCK_SYNC_EXCHANGES_PER_INTERVAL *)
Definition ATTENUATION : Z := 10.      (* _LF_CLOCK_SYNC_ATTENUATION *)
Definition GUARD_BAND : Z := 100000.   (* CLOCK_SYNC_GUARD_BAND *)

Definition c_sub64 (a b : Z) : res Z := c_add64 a (- b).

(** clock-sync.h:83-110 [socket_stat_t], and the two offsets clock-sync.c:48-50. *)
Record sync := mkSync {
  snap1 : Z;                 (* remote_physical_clock_snapshot_T1 *)
  snap2 : Z;                 (* local_physical_clock_snapshot_T2 *)
  local_delay : Z;
  received : Z;              (* received_T4_messages_in_current_sync_window *)
  history : Z;
  delay_max : Z;             (* network_stat_round_trip_delay_max *)
  index : Z;                 (* network_stat_sample_index *)
  error_bound : Z;           (* clock_synchronization_error_bound *)
  offset : Z;                (* _lf_clock_sync_offset *)
  bias : Z }.                (* _lf_clock_sync_constant_bias *)

(** clock-sync.c:48-63 *)
Definition sync0 (b : Z) : sync := mkSync 0 0 0 0 0 0 0 0 0 b.

(** clock-sync.c:264-294 [handle_T1_clock_sync_message]: [t1] from the message,
    [t2] the time it was received, [t3] the time after the reply was written. *)
Definition handle_t1 (s : sync) (t1 t2 t3 : Z) : res sync :=
  do! d <- c_sub64 t3 t2;
  Ok (mkSync t1 t2 d (received s) (history s) (delay_max s) (index s) (error_bound s) (offset s) (bias s)).

(** clock-sync.c:325-337: round-trip delay and estimated error. *)
Definition round_trip (s : sync) (t4 : Z) : res Z :=
  do! d <- c_sub64 t4 (snap1 s); c_sub64 d (local_delay s).
Definition estimated_error (s : sync) (t4 : Z) : res Z :=
  do! rtt <- round_trip s t4;
  do! skew <- c_sub64 (snap2 s) (snap1 s);
  c_sub64 (Z.quot rtt 2) skew.

(** clock-sync.c:100-116 [update_socket_stat].  The array has EXCHANGES entries;
    a write outside it is undefined.  The samples themselves only influence the
    standard deviation, which is an input of [handle_t4] here. *)
Definition update_stat (s : sync) (rtt err : Z) : res sync :=
  if (0 <=? index s) && (index s <? EXCHANGES) then
    Ok (mkSync (snap1 s) (snap2 s) (local_delay s) (received s) (history s)
               (if delay_max s <? rtt then rtt else delay_max s) (index s + 1)
               (if error_bound s <? err then err else error_bound s) (offset s) (bias s))
  else UB.

(** clock-sync.c:148-152 [reset_socket_stat] *)
Definition reset_stat (s : sync) : sync :=
  mkSync (snap1 s) (snap2 s) (local_delay s) 0 0 (delay_max s) 0 (error_bound s) (offset s) (bias s).

Definition set_received (s : sync) (n : Z) : sync :=
  mkSync (snap1 s) (snap2 s) (local_delay s) n (history s) (delay_max s) (index s) (error_bound s) (offset s) (bias s).
Definition set_history (s : sync) (h : Z) : sync :=
  mkSync (snap1 s) (snap2 s) (local_delay s) (received s) h (delay_max s) (index s) (error_bound s) (offset s) (bias s).
Definition set_offset (s : sync) (o : Z) : sync :=
  mkSync (snap1 s) (snap2 s) (local_delay s) (received s) (history s) (delay_max s) (index s) (error_bound s) o (bias s).

(** What follows T4: nothing (TCP, initial phase), or the coded probe of the UDP
    socket: not read, or read with send time [t5] and receive time [r5]. *)
Inductive probe := Tcp | Lost | Probe (t5 r5 : Z).

(** clock-sync.c:345-386: the adjustment of this exchange, or none if the
    exchange is skipped; [keep] says whether the exchange counts in the window
    although skipped (line 355 returns without the decrement of line 374). *)
Inductive filtered := Skip (keep : bool) | Adjust (a : Z).
Definition filter_probe (p : probe) (t4 r4 err : Z) : res filtered :=
  match p with
  | Tcp => Ok (Adjust err)
  | Lost => Ok (Skip true)
  | Probe t5 r5 =>
      do! a <- c_sub64 r5 r4;
      do! b <- c_sub64 t5 t4;
      do! d <- c_sub64 a b;
      if GUARD_BAND <=? Z.abs d then Ok (Skip false) else Ok (Adjust (Z.quot err ATTENUATION))
  end.

(** clock-sync.c:312-436 [handle_T4_clock_sync_message]; [noisy] is the outcome of
    the test of the standard deviation on line 408 (long double arithmetic, not
    modelled).  The offset is added atomically, with wrap-around (line 84). *)
Definition handle_t4 (s : sync) (t4 r4 : Z) (p : probe) (noisy : bool) : res sync :=
  let s := set_received s (received s + 1) in
  do! rtt <- round_trip s t4;
  do! err <- estimated_error s t4;
  do! f <- filter_probe p t4 r4 err;
  match f with
  | Skip keep => Ok (if keep then s else set_received s (received s - 1))
  | Adjust a =>
      do! s <- update_stat s rtt err;
      do! h <- c_add64 (history s) (Z.quot a EXCHANGES);
      let s := set_history s h in
      if EXCHANGES <=? received s then
        if noisy then Ok (reset_stat s)
        else Ok (reset_stat (set_offset s (wrap64 (offset s + history s))))
      else Ok s
  end.

Inductive op :=
| OT1 (t1 t2 t3 : Z)
| OT4 (t4 r4 : Z) (p : probe) (noisy : bool).
Definition step (s : sync) (o : op) : res sync :=
  match o with
  | OT1 t1 t2 t3 => handle_t1 s t1 t2 t3
  | OT4 t4 r4 p n => handle_t4 s t4 r4 p n
  end.
Fixpoint run (s : sync) (l : list op) : res sync :=
  match l with [] => Ok s | o :: r => do! s' <- step s o; run s' r end.

(** clock-sync.c:532-538 [clock_sync_add_offset], [clock_sync_subtract_offset] *)
Definition add_offset (s : sync) (t : Z) : res Z :=
  do! o <- c_add64 (offset s) (bias s); time_add t o.
Definition subtract_offset (s : sync) (t : Z) : res Z :=
  do! o <- c_add64 (offset s) (bias s); do! m <- c_sub64 0 o; time_add t m.
