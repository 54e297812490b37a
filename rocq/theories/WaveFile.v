(** Model of the reader of wave files (util/wave_file_reader.c:68-152).

    Bytes are numbers from 0 to 255, a file is its bytes.  The machine is little-endian, and
    multi-character constants have the value that gcc gives them (wave_file_reader.c:95-97),
    so that the tests of the identifiers compare four characters.  Undefined outcomes:
    [Uninit] (bytes of the header that were not in the file are used), [ZeroArray] (an array
    of length 0 on the stack), [StackOverflow] (an array larger than the stack), [NoMemory]
    (calloc fails and its result is used). *)
From Verif Require Import Base.
Local Open Scope Z_scope.

Definition RIFF : list Z := [82; 73; 70; 70].      (* "RIFF" *)
Definition WAVE : list Z := [87; 65; 86; 69].      (* "WAVE" *)
Definition FMT : list Z := [102; 109; 116; 32].    (* "fmt " *)
Definition DATA : list Z := [100; 97; 116; 97].    (* "data" *)
Fixpoint same (a b : list Z) : bool :=
  match a, b with [], [] => true | x :: a, y :: b => (x =? y) && same a b | _, _ => false end.
(** A little-endian unsigned number *)
Definition le (l : list Z) : Z := fold_right (fun b a => b + 256 * a) 0 l.
(** [n] bytes from offset [o] *)
Definition sub (l : list Z) (o n : nat) : list Z := firstn n (skipn o l).
Definition int16 (x : Z) : Z := if x <? 32768 then x else x - 65536.

Record wave := mkWave { w_length : Z; w_channels : Z; w_samples : list (option Z) (* None: indeterminate *); w_warned : bool (* about the format *) }.
Inductive result := Wave (w : wave) | NoFile | Uninit | ZeroArray | StackOverflow | NoMemory | Fuel.

(** wave_file_reader.c:98-112: the header as offsets in the struct lf_wav_t (28-66), which has no padding *)
Definition supported (f : list Z) : bool :=
  same (sub f 0 4) RIFF && same (sub f 8 4) WAVE && same (sub f 12 4) FMT && (le (sub f 16 4) =? 16) && (le (sub f 20 2) =? 1) &&
  (le (sub f 24 4) =? 44100) && (le (sub f 34 2) =? 16).
(** wave_file_reader.c:113-129: [h] the header of the current chunk, [r] what follows it.
    A header that is cut off by the end of the file replaces the first bytes of the old one. *)
Fixpoint find_data (fuel : nat) (stack : Z) (h r : list Z) : (list Z * list Z) + result :=
  match fuel with
  | O => inr Fuel
  | S fuel =>
    if same (firstn 4 h) DATA then inl (h, r)
    else
      let n := le (skipn 4 h) in
      if n =? 0 then inr ZeroArray
      else if stack <? n then inr StackOverflow
      else if Z.of_nat (length r) <? n then inl (h, [])
      else
        let r := skipn (Z.to_nat n) r in
        let h' := firstn 8 r in
        if (length h' <? 8)%nat then inl (h' ++ skipn (length h') h, []) else find_data fuel stack h' (skipn 8 r)
  end.
(** wave_file_reader.c:139-148: memory from calloc, then fread in units of two bytes; the
    value of a unit that is cut off is indeterminate *)
Fixpoint samples (n : nat) (l : list Z) : list (option Z) :=
  match n with
  | O => []
  | S n => match l with
           | a :: b :: l => Some (int16 (a + 256 * b)) :: samples n l
           | [_] => None :: repeat (Some 0) n
           | [] => repeat (Some 0) (S n)
           end
  end.
(** wave_file_reader.c:68-152 for a file that can be opened; [mem]: the bytes that can be allocated *)
Definition read_wave (stack mem : Z) (f : list Z) : result :=
  if (length f <? 44)%nat then Uninit
  else match find_data (S (length f)) stack (sub f 36 8) (skipn 44 f) with
       | inr x => x
       | inl (h, r) =>
         let n := le (skipn 4 h) / 2 in
         if mem <? 2 * n then NoMemory
         else Wave (mkWave n (le (sub f 22 2)) (samples (Z.to_nat n) r) (negb (supported f)))
       end.
(** A number of calls: the file is never closed (wave_file_reader.c:68-152 has no fclose), and
    fopen fails (73-86) when [limit] files are open. *)
Fixpoint read_all (stack mem : Z) (limit opened : nat) (fs : list (list Z)) : list result :=
  match fs with
  | [] => []
  | f :: fs => if (opened <? limit)%nat then read_wave stack mem f :: read_all stack mem limit (S opened) fs else NoFile :: read_all stack mem limit opened fs
  end.
