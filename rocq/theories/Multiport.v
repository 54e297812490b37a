(** Model of multiport iteration (core/port.c) and of the sparse record of present channels
    (core/reactor.c:47-68, core/threaded/reactor_threaded.c:174-195). *)
From Verif Require Import Base Pqueue.
Open Scope Z_scope.

(** lf_types.h / lf_token.h [lf_sparse_io_record_t]: size is an int, -1 when the record has overflowed;
    [sp_chan] is the array present_channels of length [sp_cap]. *)
Record sparse := mkSparse { sp_cap : nat; sp_size : Z; sp_chan : list nat }.
(** The multiport: width (negative if not a multiport), the flag of each channel and the record, if any. *)
Record mport := mkMport { mp_width : Z; mp_pres : nat -> bool; mp_sparse : option sparse }.

Fixpoint set_nth (l : list nat) (i : nat) (x : nat) : list nat :=
  match l, i with [], _ => [] | _ :: r, O => x :: r | y :: r, S j => y :: set_nth r j x end.

(** reactor.c:47-68 [lf_set_present] on channel [c] of the multiport. *)
Definition record (sp : sparse) (c : nat) : sparse :=
  if 0 <=? sp_size sp then
    if Z.of_nat (sp_cap sp) <=? sp_size sp then mkSparse (sp_cap sp) (-1) (sp_chan sp)
    else mkSparse (sp_cap sp) (sp_size sp + 1) (set_nth (sp_chan sp) (Z.to_nat (sp_size sp)) c)
  else sp.
Definition set_present (m : mport) (c : nat) : mport :=
  mkMport (mp_width m) (upd (mp_pres m) c true) (match mp_sparse m with None => None | Some sp => Some (record sp c) end).
(** reactor_common.c:175-195, what [_lf_start_time_step] does to the multiport. *)
Definition new_tag (m : mport) : mport :=
  mkMport (mp_width m) (fun _ => false) (match mp_sparse m with None => None | Some sp => Some (mkSparse (sp_cap sp) 0 (sp_chan sp)) end).

(** qsort with [compare_sizes] (port.c:44-51), on the first [n] entries. *)
Fixpoint insert_sorted (x : nat) (l : list nat) : list nat :=
  match l with [] => [x] | y :: r => if (x <=? y)%nat then x :: l else y :: insert_sorted x r end.
Definition sort_nat (l : list nat) : list nat := fold_right insert_sorted [] l.
Definition sort_first (n : nat) (l : list nat) : list nat := sort_nat (firstn n l) ++ skipn n l.

(** First present channel in [start, start + n). *)
Fixpoint scan (p : nat -> bool) (start n : nat) : Z :=
  match n with O => -1 | S k => if p start then Z.of_nat start else scan p (S start) k end.

Record iter := mkIter { it_next : Z; it_idx : Z }.
(** port.c:61-94 [_lf_multiport_iterator_impl].  [UB] if a record without entries is read (size beyond capacity). *)
Definition iter_init (m : mport) : res (mport * iter) :=
  if mp_width m <=? 0 then Ok (m, mkIter (-1) (-1))
  else match mp_sparse m with
       | Some sp =>
           if 0 <=? sp_size sp then
             if 0 <? sp_size sp then
               let sp1 := if 1 <? sp_size sp then mkSparse (sp_cap sp) (sp_size sp) (sort_first (Z.to_nat (sp_size sp)) (sp_chan sp)) else sp in
               match nth_error (sp_chan sp1) 0 with
               | Some c => Ok (mkMport (mp_width m) (mp_pres m) (Some sp1), mkIter (Z.of_nat c) (-1))
               | None => UB
               end
             else Ok (m, mkIter (-1) (-1))
           else Ok (m, mkIter (scan (mp_pres m) 0 (Z.to_nat (mp_width m))) (-1))
       | None => Ok (m, mkIter (scan (mp_pres m) 0 (Z.to_nat (mp_width m))) (-1))
       end.
(** port.c:101-137 [lf_multiport_next].  [UB] if port[idx] or present_channels[idx] is out of range. *)
Definition iter_next (m : mport) (i : iter) : res (Z * iter) :=
  if it_idx i <? 0 then Ok (it_next i, mkIter (it_next i) 0)
  else if (it_next i <? 0) || (mp_width m <=? 0) then Ok (-1, i)
  else if mp_width m <=? it_idx i then UB
  else
    let linear := let n := scan (mp_pres m) (Z.to_nat (it_next i + 1)) (Z.to_nat (mp_width m - (it_next i + 1))) in
                  Ok (n, mkIter n (it_idx i)) in
    match mp_sparse m with
    | Some sp =>
        if 0 <=? sp_size sp then
          let k := it_idx i + 1 in
          if sp_size sp <=? k then Ok (-1, mkIter (-1) k)
          else match nth_error (sp_chan sp) (Z.to_nat k) with
               | Some c => Ok (Z.of_nat c, mkIter (Z.of_nat c) k)
               | None => UB
               end
        else linear
    | None => linear
    end.
(** [k] calls of lf_multiport_next. *)
Fixpoint iter_calls (m : mport) (i : iter) (k : nat) : res (list Z) :=
  match k with
  | O => Ok []
  | S j => do! r <- iter_next m i; do! rest <- iter_calls m (snd r) j; Ok (fst r :: rest)
  end.
Definition iterate (m : mport) (k : nat) : res (list Z) :=
  do! r <- iter_init m; iter_calls (fst r) (snd r) k.

(** Histories: channels are set, iterators are created and called [k] times, new tags begin. *)
Inductive mop := MSet (c : nat) | MIter (k : nat) | MTag.
Definition mstep (m : mport) (o : mop) : res (mport * list (list Z)) :=
  match o with
  | MSet c => Ok (set_present m c, [])
  | MIter k => do! r <- iter_init m; do! l <- iter_calls (fst r) (snd r) k; Ok (fst r, [l])
  | MTag => Ok (new_tag m, [])
  end.
Fixpoint mrun (m : mport) (os : list mop) : res (list (list Z)) :=
  match os with
  | [] => Ok []
  | o :: r => do! x <- mstep m o; do! l <- mrun (fst x) r; Ok (snd x ++ l)
  end.

(** ** Concurrent writers: reactor_threaded.c:184-194.  Each writer sets one channel: it reads the size, then does the atomic
    fetch-and-add, then stores -1 or its channel.  The phase [Done (Some k)] remembers the slot written.  The
    size is an int; C30 shows it never exceeds the number of writers. *)
Inductive phase := Start | Checked | Got (next : Z) | Done (slot : option nat).
Record writer := mkW { w_chan : nat; w_phase : phase }.
Record shared := mkSh { sh_cap : nat; sh_size : Z; sh_chan : list nat; sh_w : list writer }.
Definition write_step (s : shared) (w : writer) : Z * list nat * phase :=
  match w_phase w with
  | Start => (sh_size s, sh_chan s, if 0 <=? sh_size s then Checked else Done None)
  | Checked => (sh_size s + 1, sh_chan s, Got (sh_size s))
  | Got k => if (k <? 0) || (Z.of_nat (sh_cap s) <=? k)      (* the comparison is on size_t, so -1 is large *)
             then (-1, sh_chan s, Done None)
             else (sh_size s, set_nth (sh_chan s) (Z.to_nat k) (w_chan w), Done (Some (Z.to_nat k)))
  | Done o => (sh_size s, sh_chan s, Done o)
  end.
Fixpoint set_w (l : list writer) (i : nat) (x : writer) : list writer :=
  match l, i with [], _ => [] | _ :: r, O => x :: r | y :: r, S j => y :: set_w r j x end.
Definition sh_step (s : shared) (i : nat) : shared :=
  match nth_error (sh_w s) i with
  | None => s
  | Some w => let '(z, c, p) := write_step s w in mkSh (sh_cap s) z c (set_w (sh_w s) i (mkW (w_chan w) p))
  end.
(** A schedule is the list of the writers that take the next step. *)
Definition sh_run (s : shared) (sched : list nat) : shared := fold_left sh_step sched s.
