(** Model of the sensor simulator (util/sensor_simulator.c).

    Characters are numbers; a text is the text of a message after formatting, without its
    last line feed.  The output thread handles the whole queue while it holds the mutex
    (292-343), so that one operation does.  Not modelled: ncurses itself other than that
    wprintw takes its text as a format, the welcome message, lists of recycled messages
    (172-179, 336-340: they are not part of what can be observed). *)
From Verif Require Import Base ClockRounds.
Local Open Scope Z_scope.

Definition TABLE_SIZE : Z := 96.                       (* sensor_simulator.c:25 *)
Definition NEWLINE : Z := 10.
Inductive message := Line (text : list Z) | Tick (text : list Z).
Inductive shown := LineAt (text : list Z) (y : Z) | TickAt (text : list Z) (x y : Z).
Inductive output := NotStarted | Running | Joined.
Record config := mkConfig { tick_w : Z; tick_h : Z; print_h : Z }.         (* sizes of the windows, with their borders *)
Record state := mkState {
  table : Z -> option nat; newline : option nat; any_key : option nat;     (* sensor_simulator.c:27-34: actions *)
  queue : list message; out : output; logging : bool;
  tick_x : Z; tick_y : Z; print_y : Z;
  display : list shown;                                                    (* what has been shown, in order *)
  scheduled : list (nat * Z) }.                                            (* actions and payloads, in order *)

Definition zupd {A} (m : Z -> A) (k : Z) (v : A) : Z -> A := fun x => if x =? k then v else m x.
(** printf without arguments: only two percent signs in a row are defined *)
Fixpoint render (l : list Z) : option (list Z) :=
  match l with
  | [] => Some []
  | c :: l => if c =? 37 then match l with
                              | d :: l => if d =? 37 then match render l with Some r => Some (37 :: r) | None => None end else None
                              | [] => None
                              end
              else match render l with Some r => Some (c :: r) | None => None end
  end.
(** sensor_simulator.c:304-334: one message.  [set_...] keep everything else. *)
Definition show_one (c : config) (s : state) (m : message) : res state :=
  match m with
  | Tick t =>
    match render t with
    | None => UB
    | Some r =>
      let x := tick_x s + Z.of_nat (length t) in
      let '(x', y) := if tick_w c - 1 <=? x then (1, tick_y s + 1) else (x, tick_y s) in
      let y' := if tick_h c - 1 <=? y then 1 else y in
      Ok (mkState (table s) (newline s) (any_key s) (queue s) (out s) (logging s) x' y' (print_y s) (display s ++ [TickAt r (tick_x s) (tick_y s)]) (scheduled s))
    end
  | Line t =>
    match render t with
    | None => UB
    | Some r =>
      let y := print_y s + 1 in
      Ok (mkState (table s) (newline s) (any_key s) (queue s) (out s) (logging s) (tick_x s) (tick_y s) (if print_h c - 1 <=? y then 0 else y)
            (display s ++ [LineAt r (print_y s)]) (scheduled s))
    end
  end.
Fixpoint show_all (c : config) (s : state) (l : list message) : res state :=
  match l with [] => Ok s | m :: l => match show_one c s m with Ok s => show_all c s l | UB => UB end end.
Definition set_queue (q : list message) (s : state) : state :=
  mkState (table s) (newline s) (any_key s) q (out s) (logging s) (tick_x s) (tick_y s) (print_y s) (display s) (scheduled s).
Definition set_out (o : output) (s : state) : state :=
  mkState (table s) (newline s) (any_key s) (queue s) o (logging s) (tick_x s) (tick_y s) (print_y s) (display s) (scheduled s).
(** sensor_simulator.c:292-343 *)
Definition flush (c : config) (s : state) : res state := show_all c (set_queue [] s) (queue s).

(** sensor_simulator.c:414-444: the state and the result; [a]: NULL or the action *)
Definition register (key : Z) (a : option nat) (s : state) : state * Z :=
  match a with
  | None => (s, 3)
  | Some a =>
    let index := key - 32 in
    if negb (key =? NEWLINE) && negb (key =? 0) && ((index <? 0) || (TABLE_SIZE <=? index)) then (s, 2)
    else if key =? NEWLINE then
      match newline s with
      | Some _ => (s, 1)
      | None => (mkState (table s) (Some a) (any_key s) (queue s) (out s) (logging s) (tick_x s) (tick_y s) (print_y s) (display s) (scheduled s), 0)
      end
    else if key =? 0 then
      match any_key s with
      | Some _ => (s, 1)
      | None => (mkState (table s) (newline s) (Some a) (queue s) (out s) (logging s) (tick_x s) (tick_y s) (print_y s) (display s) (scheduled s), 0)
      end
    else match table s index with
         | Some _ => (s, 1)
         | None => (mkState (zupd (table s) index (Some a)) (newline s) (any_key s) (queue s) (out s) (logging s) (tick_x s) (tick_y s) (print_y s) (display s) (scheduled s), 0)
         end
  end.
(** sensor_simulator.c:223-250: [c] is what wgetch gives; actions have a type of one byte,
    and [lf_schedule_copy] copies the first byte of the int *)
Definition typed (c : Z) (s : state) : state :=
  let p := c mod 256 in
  let add o := match o with Some a => [(a, p)] | None => [] end in
  let specific :=
    if (c =? NEWLINE) && (match newline s with Some _ => true | None => false end) then add (newline s)
    else if (0 <=? c - 32) && (c - 32 <? TABLE_SIZE) then add (table s (c - 32)) else [] in
  mkState (table s) (newline s) (any_key s) (queue s) (out s) (logging s) (tick_x s) (tick_y s) (print_y s) (display s) (scheduled s ++ specific ++ add (any_key s)).

Inductive op :=
| Start (log : bool)
| Register (key : Z) (a : option nat)
| Typed (c : Z)
| Print (text : list Z) (args : bool)     (* [args]: the format has conversions *)
| ShowTick (text : list Z)
| Show                                    (* the output thread runs *)
| Finish.                                 (* end_sensor_simulator, also called at exit (392) *)
Definition step (c : config) (s : state) (o : op) : res state :=
  match o with
  | Start log =>                          (* sensor_simulator.c:362-404: [thread_created] is set to 0 just before it is tested *)
    match out s with
    | Running => UB                       (* a condition variable is initialized while a thread waits on it (371) *)
    | _ => Ok (mkState (fun _ => None) (newline s) (any_key s) [] Running log 1 1 0 (display s) (scheduled s))
    end
  | Register key a => Ok (fst (register key a s))
  | Typed k => Ok (typed k s)
  | Print t args =>                       (* sensor_simulator.c:206-214: with a log file the arguments are used twice *)
    match out s with
    | Running => if logging s && args then UB else Ok (set_queue (queue s ++ [Line t]) s)
    | _ => Ok s                           (* no print function is registered (347) *)
    end
  | ShowTick t => Ok (set_queue (queue s ++ [Tick t]) s)      (* sensor_simulator.c:406-412, 170-200 *)
  | Show => match out s with Running => flush c s | _ => Ok s end
  | Finish =>                             (* sensor_simulator.c:346-357: joins the output thread *)
    match out s with
    | Running => match flush c s with Ok s => Ok (set_out Joined s) | UB => UB end
    | _ => UB                             (* a thread is joined that has not been created or has been joined *)
    end
  end.
Fixpoint run (c : config) (s : state) (l : list op) : res state :=
  match l with [] => Ok s | o :: l => match step c s o with Ok s => run c s l | UB => UB end end.
Definition init : state := mkState (fun _ => None) None None [] NotStarted false 0 0 0 [] [].
