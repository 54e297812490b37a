(** Model of the critical sections of the single-threaded runtime, which disable
    interrupts, and of the atomic operations built on them:
    [lf_disable_interrupts_nested] and [lf_enable_interrupts_nested] of
    low_level_platform/impl/src/lf_*_support.c and lf_atomic_irq.c.
    core/reactor.c:376-384: [lf_critical_section_enter] is the former and
    [lf_critical_section_exit] the latter. *)
From Verif Require Import Base.

Inductive platform := Patmos | Zephyr | Rp2040 | Flexpret | Arduino | Nrf52.

(** The state of one core.  [irq]: interrupts are enabled.  [saved]: what was stored when
    they were disabled ([irq_mask] in lf_zephyr_support.c:47; inside the critical_section_t
    of the Pico SDK).  [in_isr]: an interrupt service routine is running. *)
Record core := mkCore { nested : Z; irq : bool; saved : bool; in_isr : bool }.

Definition core0 : core := mkCore 0 true false false.

(** What a call does: it returns 0 or an error code, or [fp_assert] stops the program. *)
Inductive ret := Zero | Err | Stopped.

Definition INT_MAX : Z := 2147483647.
Definition INT_MIN : Z := -2147483648.

Definition set_nested (c : core) (n : Z) : core := mkCore n (irq c) (saved c) (in_isr c).
Definition set_irq (c : core) (b : bool) : core := mkCore (nested c) b (saved c) (in_isr c).

(** Signed increment and decrement of an int. *)
Definition incr_int (n : Z) : res Z := if n =? INT_MAX then UB else Ok (n + 1).
Definition decr_int (n : Z) : res Z := if n =? INT_MIN then UB else Ok (n - 1).

(** [lf_disable_interrupts_nested]. *)
Definition disable (p : platform) (c : core) : res (core * ret) :=
  match p with
  | Patmos =>
      (* lf_patmos_support.c:114-119; the counter is an int *)
      do! n <- incr_int (nested c);
      let c1 := set_nested c n in
      Ok (if nested c =? 0 then set_irq c1 false else c1, Zero)
  | Zephyr =>
      (* lf_zephyr_support.c:61-66; uint32_t; irq_lock returns whether interrupts were on *)
      let c1 := set_nested c ((nested c + 1) mod two32) in
      Ok (if nested c =? 0
          then mkCore (nested c1) false (irq c) (in_isr c) else c1, Zero)
  | Rp2040 =>
      (* lf_rp2040_support.c:156-170, for an initialised critical section and one core:
         critical_section_enter_blocking saves and disables interrupts *)
      let c1 := if nested c =? 0 then mkCore (nested c) false (irq c) (in_isr c) else c in
      Ok (set_nested c1 ((nested c1 + 1) mod two32), Zero)
  | Flexpret =>
      (* lf_flexpret_support.c:130-143; int, one counter for each hardware thread *)
      if in_isr c then Ok (c, Zero)
      else if nested c <? 0 then Ok (c, Stopped)
      else do! n <- incr_int (nested c);
           let c1 := set_nested c n in
           Ok (if nested c =? 0 then set_irq c1 false else c1, Zero)
  | Arduino =>
      (* lf_arduino_support.c:139-147 *)
      if nested c <=? 0 then Ok (c, Err)
      else do! n <- decr_int (nested c);
           let c1 := set_nested c n in
           Ok (if n =? 0 then set_irq c1 true else c1, Zero)
  | Nrf52 =>
      (* lf_nrf52_support.c:293-300; uint8_t; sd_nvic_critical_region_enter disables the
         interrupts of the application and returns NRF_SUCCESS = 0 *)
      Ok (set_irq (set_nested c ((nested c + 1) mod 256)) false, Zero)
  end.

(** [lf_enable_interrupts_nested]. *)
Definition enable (p : platform) (c : core) : res (core * ret) :=
  match p with
  | Patmos =>
      (* lf_patmos_support.c:121-130 *)
      if nested c <=? 0 then Ok (c, Err)
      else do! n <- decr_int (nested c);
           let c1 := set_nested c n in
           Ok (if n =? 0 then set_irq c1 true else c1, Zero)
  | Zephyr =>
      (* lf_zephyr_support.c:68-77; irq_unlock restores what irq_lock found *)
      if nested c <=? 0 then Ok (c, Err)
      else let n := (nested c - 1) mod two32 in
           let c1 := set_nested c n in
           Ok (if n =? 0 then set_irq c1 (saved c) else c1, Zero)
  | Rp2040 =>
      (* lf_rp2040_support.c:179-191 *)
      if nested c <=? 0 then Ok (c, Err)
      else let n := (nested c - 1) mod two32 in
           let c1 := set_nested c n in
           Ok (if n =? 0 then set_irq c1 (saved c) else c1, Zero)
  | Flexpret =>
      (* lf_flexpret_support.c:145-158 *)
      if in_isr c then Ok (c, Zero)
      else do! n <- decr_int (nested c);
           let c1 := set_nested c n in
           let c2 := if n =? 0 then set_irq c1 true else c1 in
           Ok (c2, if n <? 0 then Stopped else Zero)
  | Arduino =>
      (* lf_arduino_support.c:128-137 *)
      do! n <- incr_int (nested c);
      let c1 := set_nested c n in
      Ok (if nested c =? 0 then set_irq c1 false else c1, Zero)
  | Nrf52 =>
      (* lf_nrf52_support.c:278-286; sd_nvic_critical_region_exit(0) ends the region, that
         is, it enables the interrupts again whatever the nesting *)
      if nested c =? 0 then Ok (c, Err)
      else Ok (set_irq (set_nested c (nested c - 1)) true, Zero)
  end.

Inductive op := Enter | Exit.

Definition call (p : platform) (o : op) (c : core) : res (core * ret) :=
  match o with Enter => disable p c | Exit => enable p c end.

(** The calls of a program, with the value each returns and the state after it. *)
Fixpoint run (p : platform) (c : core) (l : list op) : res (core * list ret) :=
  match l with
  | [] => Ok (c, [])
  | o :: r =>
      do! x <- call p o c;
      do! y <- run p (fst x) r;
      Ok (fst y, snd x :: snd y)
  end.

(** * Atomic operations, lf_atomic_irq.c

    A step reads or writes the cell [mem]; [loc] and [tmp] are the local variables. *)
Record cell := mkCell { mem : Z; loc : Z; tmp : Z }.

Definition step := cell -> cell.

(** Addition of signed integers of [w] bits.  Overflow is undefined in C; the theorems
    exclude it, so the two's complement result given here is never used. *)
Definition wrap (w z : Z) : Z := (z + 2 ^ (w - 1)) mod 2 ^ w - 2 ^ (w - 1).

(** [lf_atomic_fetch_add] and [lf_atomic_fetch_add64], lines 20-34. *)
Definition fetch_add (w v : Z) : list step :=
  [fun c => mkCell (mem c) (mem c) (tmp c);                     (* res = *ptr *)
   fun c => mkCell (mem c) (loc c) (wrap w (mem c + v));        (* *ptr + value *)
   fun c => mkCell (tmp c) (loc c) (tmp c)].                    (* *ptr = ... *)

(** [lf_atomic_add_fetch] and [lf_atomic_add_fetch64], lines 36-50. *)
Definition add_fetch (w v : Z) : list step :=
  [fun c => mkCell (mem c) (wrap w (mem c + v)) (tmp c);        (* res = *ptr + value *)
   fun c => mkCell (loc c) (loc c) (tmp c)].                    (* *ptr = res *)

(** [lf_atomic_bool_compare_and_swap] and its 64-bit version, lines 52-72; [tmp] is the
    outcome of the comparison. *)
Definition bool_cas (old new : Z) : list step :=
  [fun c => mkCell (mem c) 0 (tmp c);                           (* res = false *)
   fun c => mkCell (mem c) (loc c) (if mem c =? old then 1 else 0);
   fun c => if tmp c =? 1 then mkCell new (loc c) (tmp c) else c;
   fun c => if tmp c =? 1 then mkCell (mem c) 1 (tmp c) else c].

(** [lf_atomic_val_compare_and_swap] and its 64-bit version, lines 74-92. *)
Definition val_cas (old new : Z) : list step :=
  [fun c => mkCell (mem c) (mem c) (tmp c);                     (* res = *ptr *)
   fun c => mkCell (mem c) (loc c) (if mem c =? old then 1 else 0);
   fun c => if tmp c =? 1 then mkCell new (loc c) (tmp c) else c].

(** One interrupt: what its service routine does to the cell.  The routine runs to its end;
    its own critical sections are balanced and leave [core] as it was. *)
Definition isr := Z -> Z.

Definition fire (f : isr) (c : cell) : cell := mkCell (f (mem c)) (loc c) (tmp c).

(** The machine: the core, the cell, and the interrupts raised and not yet served. *)
Record machine := mkMachine { cpu : core; data : cell; waiting : list isr }.

(** Interrupts [fs] are raised; if interrupts are enabled all waiting ones are served. *)
Definition raise_irqs (m : machine) (fs : list isr) : machine :=
  let w := waiting m ++ fs in
  if irq (cpu m)
  then mkMachine (cpu m) (fold_left (fun c f => fire f c) w (data m)) []
  else mkMachine (cpu m) (data m) w.

(** The steps of the body with interrupts raised before each of them. *)
Fixpoint body (m : machine) (l : list (list isr * step)) : machine :=
  match l with
  | [] => m
  | (fs, s) :: r =>
      let m1 := raise_irqs m fs in
      body (mkMachine (cpu m1) (s (data m1)) (waiting m1)) r
  end.

(** disable; body; enable, with interrupts [before] the call, during it and [after] it. *)
Definition atomic (p : platform) (m : machine) (before : list isr)
    (l : list (list isr * step)) (last after : list isr) : res machine :=
  let m0 := raise_irqs m before in
  do! x <- disable p (cpu m0);
  let m1 := body (mkMachine (fst x) (data m0) (waiting m0)) l in
  let m2 := raise_irqs m1 last in
  do! y <- enable p (cpu m2);
  Ok (raise_irqs (mkMachine (fst y) (data m2) (waiting m2)) after).

(** * Two cores or hardware threads

    lf_atomic_irq.c is also what the threaded runtime uses on RP2040 and FlexPRET.  Each
    core performs [fetch_add] of 1 once; the steps of the two are interleaved. *)
Inductive pc2 := Test | Lock | Count | Load | Store | Uncount (locked : bool) | Done.

Record two := mkTwo {
  shared_count : Z;              (* _lf_num_nested_crit_sec, lf_rp2040_support.c:57 *)
  lock : bool;                   (* the spin lock of _lf_crit_sec *)
  value2 : Z;
  at0 : pc2; at1 : pc2;
  res0 : Z; res1 : Z }.

Definition two0 : two := mkTwo 0 false 0 Test Test 0 0.

Definition at2 (s : two) (k : bool) : pc2 := if k then at1 s else at0 s.
Definition res2 (s : two) (k : bool) : Z := if k then res1 s else res0 s.

Definition upd2 (s : two) (k : bool) (count : Z) (l : bool) (v : Z) (p : pc2) (r : Z) : two :=
  if k then mkTwo count l v (at0 s) p (res0 s) r else mkTwo count l v p (at1 s) r (res1 s).

(** RP2040: lf_rp2040_support.c:163-168, lf_atomic_irq.c:22-23, lf_rp2040_support.c:184-189.
    A core that waits for the spin lock does nothing. *)
Definition rp2040_step (s : two) (k : bool) : two :=
  let c := shared_count s in let l := lock s in let v := value2 s in let r := res2 s k in
  match at2 s k with
  | Test => upd2 s k c l v (if c =? 0 then Lock else Count) r
  | Lock => if l then s else upd2 s k c true v Count r
  | Count => upd2 s k (c + 1) l v Load r
  | Load => upd2 s k c l v Store v
  | Store => upd2 s k c l (r + 1) (Uncount true) r
  | Uncount _ => upd2 s k (c - 1) (if c - 1 =? 0 then false else l) v Done r
  | Done => s
  end.

(** FlexPRET: only the interrupts of the own hardware thread are disabled. *)
Definition flexpret_step (s : two) (k : bool) : two :=
  let v := value2 s in let r := res2 s k in
  match at2 s k with
  | Load => upd2 s k 0 false v Store v
  | Store => upd2 s k 0 false (r + 1) Done r
  | Done => s
  | _ => upd2 s k 0 false v Load r
  end.

Definition run2 (f : two -> bool -> two) (s : two) (l : list bool) : two := fold_left f l s.
