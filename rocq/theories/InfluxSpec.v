(** What the database reads (C99): the line protocol of InfluxDB, and settings on the command line. *)
From Coq Require Import String.
From Verif Require Import Base CText Logging Net TraceFile TraceCsv Chrome Influx.
Open Scope Z_scope.
Local Open Scope list_scope.

Inductive value := Quoted (t : text) | Plain_ (t : text).
Record point := mkPoint { t_meas : text; t_tags : list (text * text); t_fields : list (text * value); t_time : text }.

(** Read up to one of the characters [stops]; a backslash in front of one of them is an escape, any other one a character. *)
Fixpoint take (stops s : text) : text * text :=
  match s with
  | [] => ([], [])
  | c :: r =>
      if member c stops then ([], s)
      else if c =? 92 then
        match r with
        | d :: r' => if member d stops then let '(a, b) := take stops r' in (d :: a, b) else let '(a, b) := take stops r in (c :: a, b)
        | [] => ([c], [])
        end
      else let '(a, b) := take stops r in (c :: a, b)
  end.
Fixpoint read_tags (fuel : nat) (s : text) : option (list (text * text) * text) :=
  match fuel, s with
  | S fuel, 44 :: s =>
      match take (lit ",= ") s with
      | (k, 61 :: s) => let '(v, s) := take (lit ",= ") s in match read_tags fuel s with Some (l, s) => Some ((k, v) :: l, s) | None => None end
      | _ => None
      end
  | _, _ => Some ([], s)
  end.
Fixpoint read_fields (fuel : nat) (s : text) : option (list (text * value) * text) :=
  match fuel with
  | O => None
  | S fuel =>
      match take (lit ",= ") s with
      | (k, 61 :: s) =>
          match (match s with
                 | [] => None
                 | c :: s' => if c =? 34 then match take [34] s' with (v, 34 :: s) => Some (Quoted v, s) | _ => None end
                              else let '(v, s) := take (lit ", ") s in Some (Plain_ v, s)
                 end) with
          | Some (v, 44 :: s) => match read_fields fuel s with Some (l, s) => Some ((k, v) :: l, s) | None => None end
          | Some (v, s) => Some ([(k, v)], s)
          | None => None
          end
      | _ => None
      end
  end.
(** One line: measurement, tags, fields, time. *)
Definition read_line (s : text) : option point :=
  let n := List.length s in
  let '(m, s) := take (lit ", ") s in
  match read_tags n s with
  | Some (tags, 32 :: s) =>
      match read_fields n s with
      | Some (fields, 32 :: s) => match take [10] s with (t, [10]) => Some (mkPoint m tags fields t) | _ => None end
      | _ => None
      end
  | _ => None
  end.

(** The point that an entry of the trace stands for. *)
Definition int (z : Z) : value := Plain_ (sdec z ++ [105]).
Definition reactor_of (table : list object) (e : entry) : text := text_of (fst (get_object_description table (pointer e))) (lit "NO REACTOR").
Definition trigger_of (table : list object) (e : entry) : text := text_of (fst (get_trigger_name table (trigger e))) (lit "NO TRIGGER").
Definition meaning (table : list object) (e : entry) : point :=
  mkPoint (event_name (event_type e))
    [(lit "Reactor", reactor_of table e); (lit "Reaction", if 0 <=? dst_id e then sdec (dst_id e) else lit "none")]
    [(lit "Worker", int (src_id e)); (lit "Logical Time", int (logical_time e)); (lit "Microstep", int (microstep e));
     (lit "Trigger Name", Quoted (trigger_of table e)); (lit "Extra Delay", int (extra_delay e))]
    (sdec (physical_time e)).
(** The database keeps one point for each measurement, tags and time. *)
Definition identity (p : point) : text * list (text * text) * text := (t_meas p, t_tags p, t_time p).

(** A name that the line protocol can hold. *)
Definition tame_name (t : text) : Prop := Forall (fun c => 32 <= c /\ c <> 92) t.
Definition escape (set t : text) : text := flat_map (fun c => if member c set then [92; c] else [c]) t.
(** The line of an entry. *)
Definition line_of (table : list object) (e : entry) : text :=
  escape (lit ", ") (event_name (event_type e)) ++ lit ",Reactor=" ++ escape (lit ",= ") (reactor_of table e)
  ++ lit ",Reaction=" ++ (if 0 <=? dst_id e then sdec (dst_id e) else lit "none") ++ lit " Worker=" ++ sdec (src_id e)
  ++ lit "i,Logical\ Time=" ++ sdec (logical_time e) ++ lit "i,Microstep=" ++ sdec (microstep e)
  ++ lit "i,Trigger\ Name=""" ++ escape [34] (trigger_of table e) ++ lit """,Extra\ Delay=" ++ sdec (extra_delay e) ++ lit "i "
  ++ sdec (physical_time e) ++ [10].
(** Entries that can be sent: names without backslashes, reactions with up to three digits, lines that fit into the first block. *)
Definition sendable (table : list object) (e : entry) : Prop :=
  0 <= event_type e /\ tame_name (reactor_of table e) /\ tame_name (trigger_of table e) /\ dst_id e < 1000 /\ Z.of_nat (List.length (line_of table e)) < 256.
Definition local (e : entry) : bool := event_type e <=? federated.

(** The number of requests among [n] that are made if curl returns these codes: up to the first failure. *)
Fixpoint sent (codes : list Z) (n : nat) : nat :=
  match n with O => O | S n => if hd 0 codes =? 0 then S (sent (tl codes) n) else 1%nat end.

(** Settings in any order, with short or long names; the last one of each kind counts. *)
Inductive item := Token (long : bool) (v : text) | Host (long : bool) (v : text) | Port (long : bool) (v : text) | Org (long : bool) (v : text)
  | Bucket (long : bool) (v : text) | File (f : text).
Definition words (i : item) : list text :=
  match i with
  | Token b v => [lit (if b then "--token" else "-t"); v] | Host b v => [lit (if b then "--host" else "-h"); v]
  | Port b v => [lit (if b then "--port" else "-p"); v] | Org b v => [lit (if b then "--org" else "-o"); v]
  | Bucket b v => [lit (if b then "--bucket" else "-b"); v] | File f => [f]
  end%string.
Definition options : list string := ["-t"; "--token"; "-h"; "--host"; "-p"; "--port"; "-o"; "--org"; "-b"; "--bucket"]%string.
Definition good (i : item) : Prop :=
  match i with Port _ v => - 2 ^ 31 <= number v < 2 ^ 31 | File f => Forall (fun o => f <> lit o) options | _ => True end.
Definition last_of {A} (f : item -> option A) (l : list item) (d : A) : A := fold_left (fun d i => match f i with Some v => v | None => d end) l d.
Definition token_of (l : list item) : option text := last_of (fun i => match i with Token _ v => Some (Some v) | _ => None end) l None.
Definition host_of (l : list item) : text := last_of (fun i => match i with Host _ v => Some v | _ => None end) l (lit "localhost").
Definition port_of (l : list item) : Z := last_of (fun i => match i with Port _ v => Some (number v) | _ => None end) l 8086.
Definition org_of (l : list item) : text := last_of (fun i => match i with Org _ v => Some v | _ => None end) l (lit "iCyPhy").
Definition bucket_of (l : list item) : text := last_of (fun i => match i with Bucket _ v => Some v | _ => None end) l (lit "test").
Definition file_of (l : list item) : option text := last_of (fun i => match i with File f => Some (Some f) | _ => None end) l None.
