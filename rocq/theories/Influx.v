(** Model of util/tracing/trace_to_influxdb.c and of the part of util/tracing/influxdb.h that it uses: a trace is sent to a
    database, one request per entry.  Strings have no NUL; malloc and realloc succeed; curl is modelled by the codes that it
    returns. *)
From Coq Require Import String.
From Verif Require Import Base CText Logging Net TraceFile TraceCsv Chrome.
Open Scope Z_scope.
Local Open Scope list_scope.

(** A memory block of [b_len] bytes of which the first ones have been used; [uninit] is a byte that was never written. *)
Definition uninit : Z := -1.
Record buffer := mkBuffer { b_mem : text; b_len : Z }.
Definition used (b : buffer) : Z := Z.of_nat (List.length (b_mem b)).

(** influxdb.h:339-350 [_APPEND]: what snprintf has cut off is not written again after the realloc *)
Definition append (p : text) (b : buffer) : buffer :=
  let w := Z.of_nat (List.length p) in
  if used b + w <? b_len b then mkBuffer (b_mem b ++ p) (b_len b)
  else if used b <? b_len b then
    mkBuffer (b_mem b ++ firstn (Z.to_nat (b_len b - used b - 1)) p ++ 0 :: repeat uninit (Z.to_nat (used b + w - b_len b))) (2 * b_len b)
  else mkBuffer (b_mem b ++ repeat uninit (Z.to_nat w)) (2 * b_len b).

Definition member (c : Z) (set : text) : bool := existsb (Z.eqb c) set.
(** strcspn: the part before the first character of the set, and the rest *)
Fixpoint span (set s : text) : text * text :=
  match s with
  | [] => ([], [])
  | c :: r => if member c set then ([], s) else let '(a, b) := span set r in (c :: a, b)
  end.
(** influxdb.h:427-447 [_escaped_append]; each turn uses at least one character, so [fuel] is the length of [src].  The block is
    doubled at most once per copy, also if that is not enough. *)
Fixpoint escaped_append (fuel : nat) (set src : text) (b : buffer) : outcome buffer :=
  let '(run, rest) := span set src in
  let n := used b + Z.of_nat (List.length run) in
  let len := if (match run with [] => false | _ => true end) && (b_len b <? n) then 2 * b_len b else b_len b in
  if len <? n then Undefined
  else
    let m := b_mem b ++ run in
    match rest with
    | [] => Ok (mkBuffer m len)
    | c :: rest =>
        let len := if len <? n + 2 then 2 * len else len in
        match fuel with O => Undefined | S fuel => escaped_append fuel set rest (mkBuffer (m ++ [92; c]) len) end
    end.

(** influxdb.h:31-38: the arguments of a line *)
Inductive arg := Meas (m : text) | Tag (k v : text) | FStr (k v : text) | FInt (k : text) (v : Z) | Ts (v : Z).
Definition type_of (a : arg) : Z := match a with Meas _ => 1 | Tag _ _ => 2 | FStr _ _ => 3 | FInt _ _ => 5 | Ts _ => 7 end.
Inductive piece := P (t : text) | E (set t : text).
Definition key_set : text := lit ",= ".
Definition meas_set : text := lit ", ".
Definition quote_set : text := [34].
(** influxdb.h:363-369 *)
Definition key (last type : Z) (k : text) : list piece :=
  [P (if (last <=? 2) && (2 <? type) then [32] else [44]); E key_set k; P [61]].
(** influxdb.h:362-411: the pieces of one argument; None is FAIL *)
Definition pieces (last : Z) (a : arg) : option (list piece) :=
  match a with
  | Meas m => if last =? 0 then Some [E meas_set m] else if last <=? 2 then None else Some [P nl; E meas_set m]
  | Tag k v => if (last <? 1) || (2 <? last) then None else Some (key last 2 k ++ [E key_set v])
  | FStr k v => if (last <? 1) || (6 <? last) then None else Some (key last 3 k ++ [P [34]; E quote_set v; P [34]])
  | FInt k v => if (last <? 1) || (6 <? last) then None else Some (key last 5 k ++ [P (sdec v ++ [105])])
  | Ts v => if (last <? 3) || (6 <? last) then None else Some [P (32 :: sdec v)]
  end.
(** influxdb.h:361-419 *)
Fixpoint all_pieces (last : Z) (l : list arg) : option (list piece) :=
  match l with
  | [] => if last <=? 2 then None else Some [P nl]
  | a :: l => match pieces last a, all_pieces (type_of a) l with Some p, Some q => Some (p ++ q) | _, _ => None end
  end.
Definition put (b : outcome buffer) (p : piece) : outcome buffer :=
  match b with
  | Undefined => Undefined
  | Ok b => match p with P t => Ok (append t b) | E set t => escaped_append (List.length t) set t b end
  end.
(** influxdb.h:325-336 [_begin_line], [_format_line]: the block starts with 256 bytes *)
Definition format_line (l : list arg) : outcome (option buffer) :=
  match all_pieces 0 l with
  | None => Ok None
  | Some ps => match fold_left put ps (Ok (mkBuffer [] 256)) with Ok b => Ok (Some b) | Undefined => Undefined end
  end.

(** The bytes up to the NUL, as curl takes them *)
Fixpoint c_string (m : text) : outcome text :=
  match m with
  | [] => Ok []
  | c :: m => if c =? 0 then Ok [] else if c =? uninit then Undefined else match c_string m with Ok t => Ok (c :: t) | Undefined => Undefined end
  end.

(** trace_to_influxdb.c:203-208; the precision is never set *)
Record conf := mkConf { c_token : option text; c_host : text; c_port : Z; c_org : text; c_bucket : text }.
Definition conf0 : conf := mkConf None (lit "localhost") 8086 (lit "iCyPhy") (lit "test").
Record request := mkRequest { q_url : text; q_token : text; q_data : text }.
Definition url (c : conf) : text :=
  lit "http://" ++ c_host c ++ lit ":" ++ sdec (if c_port c =? 0 then 8086 else c_port c) ++ lit "/api/v2/write?org=" ++ c_org c
  ++ lit "&bucket=" ++ c_bucket c ++ lit "&precision=ns".
Definition token_line (t : text) : text := lit "Authorization: Token " ++ t.
(** influxdb.h:263-312 [post_curl]: the URL is cut to the length of the line, the token is written to a block of 120 bytes *)
Definition post_curl (c : conf) (token : text) (l : list arg) : outcome request :=
  match format_line l with
  | Ok (Some b) =>
      if 120 <=? Z.of_nat (List.length (token_line token)) then Undefined
      else match c_string (b_mem b) with
           | Ok data => Ok (mkRequest (snprintf (List.length (b_mem b)) (url c)) (token_line token) data)
           | Undefined => Undefined
           end
  | _ => Undefined
  end.

(** trace_to_influxdb.c:163-189: the point of an entry *)
Definition point_of (table : list object) (e : entry) : list arg :=
  let reaction := if 0 <=? dst_id e then snprintf 4 (sdec (dst_id e)) else lit "none" in
  [Meas (event_name (event_type e)); Tag (lit "Reactor") (text_of (fst (get_object_description table (pointer e))) (lit "NO REACTOR"));
   Tag (lit "Reaction") reaction; FInt (lit "Worker") (src_id e); FInt (lit "Logical Time") (logical_time e);
   FInt (lit "Microstep") (microstep e); FStr (lit "Trigger Name") (text_of (fst (get_trigger_name table (trigger e))) (lit "NO TRIGGER"));
   FInt (lit "Extra Delay") (extra_delay e); Ts (physical_time e)].
(** trace_to_influxdb.c:152-196 [read_and_write_trace], one block: the requests, the codes of curl that are left, and whether all
    were accepted *)
Fixpoint write_block (c : conf) (token : text) (table : list object) (codes : list Z) (l : list entry) : outcome (list request * list Z * bool) :=
  match l with
  | [] => Ok ([], codes, true)
  | e :: l =>
      if federated <? event_type e then write_block c token table codes l
      else if event_type e <? 0 then Undefined
      else
        match post_curl c token (point_of table e) with
        | Undefined => Undefined
        | Ok q =>
            if hd 0 codes =? 0 then
              match write_block c token table (tl codes) l with Ok (qs, cs, b) => Ok (q :: qs, cs, b) | Undefined => Undefined end
            else Ok ([q], tl codes, false)
        end
  end.
(** trace_to_influxdb.c:269-274: the requests and the number that is printed; [blocks] are what read_trace reads *)
Fixpoint load (c : conf) (token : text) (table : list object) (codes : list Z) (blocks : list (list entry)) (num : Z) : outcome (list request * Z) :=
  match blocks with
  | [] => Ok ([], num)
  | b :: blocks =>
      if (Z.of_nat (List.length b) =? 0) then Ok ([], num)
      else
        match write_block c token table codes b with
        | Undefined => Undefined
        | Ok (qs, cs, ok) =>
            if ok then
              match load c token table cs blocks (Z.of_nat (List.length b)) with Ok (rs, n) => Ok (qs ++ rs, n) | Undefined => Undefined end
            else Ok (qs, num)
        end
  end.

(** trace_to_influxdb.c:198-263 [main]; [Failed] is a message and the exit code 1 *)
Inductive parsed := Usage | Failed | Start (c : conf) (token file : text).
Definition is2 (a : text) (s l : string) : bool := str_eqb (lit s) a || str_eqb (lit l) a.
Definition set_token (c : conf) (v : text) : conf := mkConf (Some v) (c_host c) (c_port c) (c_org c) (c_bucket c).
Definition set_host (c : conf) (v : text) : conf := mkConf (c_token c) v (c_port c) (c_org c) (c_bucket c).
Definition set_port (c : conf) (v : Z) : conf := mkConf (c_token c) (c_host c) v (c_org c) (c_bucket c).
Definition set_org (c : conf) (v : text) : conf := mkConf (c_token c) (c_host c) (c_port c) v (c_bucket c).
Definition set_bucket (c : conf) (v : text) : conf := mkConf (c_token c) (c_host c) (c_port c) (c_org c) v.
Fixpoint parse (argv : list text) (c : conf) (file : option text) : outcome parsed :=
  match argv with
  | [] => match c_token c, file with Some t, Some f => Ok (Start c t f) | _, _ => Ok Failed end
  | a :: rest =>
      if is2 a "-t" "--token" then match rest with [] => Ok Failed | v :: rest => parse rest (set_token c v) file end
      else if is2 a "-h" "--host" then match rest with [] => Ok Failed | v :: rest => parse rest (set_host c v) file end
      else if is2 a "-p" "--port" then
        match rest with [] => Ok Failed | v :: rest => if in_int32b (number v) then parse rest (set_port c (number v)) file else Undefined end
      else if is2 a "-o" "--org" then match rest with [] => Ok Failed | v :: rest => parse rest (set_org c v) file end
      else if is2 a "-b" "--bucket" then match rest with [] => Ok Failed | v :: rest => parse rest (set_bucket c v) file end
      else parse rest c (Some a)
  end.
Definition main (argv : list text) : outcome parsed := match argv with [] => Ok Usage | _ => parse argv conf0 None end.
