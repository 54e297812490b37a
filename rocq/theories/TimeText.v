(** Model of the printing of times: core/tag.c:145-269.

    A buffer is a memory of characters; [hi] is one more than the highest index written.  [snprintf] writes at most
    [n - 1] characters and a NUL.  Reading [clauses] outside its seven elements is undefined behaviour. *)
From Verif Require Import Base.
From Verif Require Import Pqueue.   (* [upd] *)
From Coq Require Import Ascii String.
Open Scope Z_scope.

Definition NUL : ascii := ascii_of_nat 0.
Record cbuf := mkBuf { b_mem : nat -> ascii; b_hi : nat }.

(** Writing one character after another from index [p]. *)
Fixpoint write_chars (b : cbuf) (p : nat) (l : list ascii) : cbuf :=
  match l with
  | [] => b
  | c :: l => write_chars (mkBuf (upd (b_mem b) p c) (Nat.max (b_hi b) (S p))) (S p) l
  end.
Definition snprintf (b : cbuf) (p n : nat) (l : list ascii) : cbuf := write_chars b p (firstn (n - 1) l ++ [NUL]).
(** The text from [p] up to the first NUL, at most [fuel] characters. *)
Fixpoint text_from (m : nat -> ascii) (p fuel : nat) : list ascii :=
  match fuel with
  | O => []
  | S fuel => if Ascii.eqb (m p) NUL then [] else m p :: text_from m (S p) fuel
  end.

(** The conversion "%lld" of a non-negative number, and "%03lld". *)
Definition digit (d : Z) : ascii := ascii_of_nat (48 + Z.to_nat d).
Fixpoint decimal (fuel : nat) (v : Z) : list ascii :=
  match fuel with
  | O => []
  | S fuel => if v <? 10 then [digit v] else decimal fuel (v / 10) ++ [digit (v mod 10)]
  end.
Definition fmt_d (v : Z) : list ascii := decimal 20 v.
Definition fmt_03d (v : Z) : list ascii := let l := fmt_d v in repeat (digit 0) (3 - List.length l) ++ l.

(** tag.c:244-248: the clauses, lowest order first; [room] is the room left in the array. *)
Fixpoint clauses (room : nat) (time : Z) : res (list Z) :=
  if time <=? 0 then Ok []
  else match room with
       | O => UB
       | S room => do! l <- clauses room (time / 1000); Ok (time :: l)
       end.

(** tag.c:262-267, highest order first. *)
Fixpoint print_rest (b : cbuf) (p : nat) (l : list Z) : cbuf * nat :=
  match l with
  | [] => (b, p)
  | c :: l => print_rest (snprintf b p 8 (","%char :: fmt_03d (c mod 1000))) (p + 4) l
  end.

(** tag.c:229-269 [lf_comma_separated_time], writing from index [p]; the result is the new index. *)
Definition comma_separated (b : cbuf) (p : nat) (time : Z) : res (cbuf * nat) :=
  if time =? 0 then Ok (snprintf b p 2 ["0"%char], p + 1)%nat
  else
    let (b, p) := if time <? 0 then (snprintf b p 2 ["-"%char], p + 1)%nat else (b, p) in
    do! l <- clauses 7 time;
    match rev l with
    | [] => UB                                         (* clauses[-1] *)
    | top :: l =>
      let v := top mod 1000 in
      let b := snprintf b p 5 (fmt_d v) in
      Ok (print_rest b (p + (if Z.leb 100 v then 3 else if Z.leb 10 v then 2 else 1))%nat l)
    end.

Definition USEC := 1000.
Definition MSEC := 1000000.
Definition SECONDS := 1000000000.
Definition MINUTES := 60 * SECONDS.
Definition HOURS := 60 * MINUTES.
Definition DAYS := 24 * HOURS.
Definition WEEKS := 7 * DAYS.

(** tag.c:151-207: one clause; the state is the buffer, the index, the remaining time and [lead]. *)
Record rt := mkRt { rt_buf : cbuf; rt_pos : nat; rt_time : Z; rt_lead : bool }.
Definition lead_in (x : rt) : cbuf * nat :=
  if rt_lead x then (snprintf (rt_buf x) (rt_pos x) 3 [","%char; " "%char], rt_pos x + 2)%nat else (rt_buf x, rt_pos x).
Definition unit_clause (unit : Z) (size adv : nat) (name : list ascii) (x : rt) : res rt :=
  if unit <? rt_time x then
    let (b, p) := lead_in x in
    do! bp <- comma_separated b p (rt_time x / unit);
    Ok (mkRt (snprintf (fst bp) (snd bp) size name) (snd bp + adv)%nat (rt_time x mod unit) true)
  else Ok x.
(** tag.c:208-225 *)
Definition last_clause (x : rt) : res rt :=
  if 0 <? rt_time x then
    let (b, p) := lead_in x in
    let (units, time) := if rt_time x mod MSEC =? 0 then ("ms"%string, rt_time x / MSEC) else if rt_time x mod USEC =? 0 then ("us"%string, rt_time x / USEC) else ("ns"%string, rt_time x) in
    do! bp <- comma_separated b p time;
    Ok (mkRt (snprintf (fst bp) (snd bp) 4 (" "%char :: list_ascii_of_string units)) (snd bp + (String.length units + 1))%nat time (rt_lead x))
  else Ok x.

(** tag.c:145-227 [lf_readable_time] *)
Definition readable (b : cbuf) (time : Z) : res (cbuf * nat) :=
  if time <=? 0 then Ok (snprintf b 0 2 ["0"%char], 1%nat)
  else
    do! x <- unit_clause WEEKS 7 6 (list_ascii_of_string " weeks") (mkRt b 0 time false);
    do! x <- unit_clause DAYS 3 2 (list_ascii_of_string " d") x;
    do! x <- unit_clause HOURS 3 2 (list_ascii_of_string " h") x;
    do! x <- unit_clause MINUTES 5 4 (list_ascii_of_string " min") x;
    do! x <- unit_clause SECONDS 3 2 (list_ascii_of_string " s") x;
    do! x <- last_clause x;
    Ok (rt_buf x, rt_pos x).
