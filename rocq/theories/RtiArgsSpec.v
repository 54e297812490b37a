(** What the usage message of the coordinator (core/federated/RTI/main.c:119-145)
    promises: options with a short and a long name, numbers in decimal. *)
From Verif Require Import Base CText RtiArgs ArgsSpec.
From Coq Require Import String.
Open Scope Z_scope.

Inductive clock_option :=
| Status (c : clock_sync_stat)
| Period (n : Z)
| Exchanges (n : Z).
Inductive option_ :=
| Id (v : text)
| Federates (n : Z)
| Port (n : Z)
| ClockSync (cs : list clock_option)
| Auth
| Tracing
| Blank.

(** How an option is written. *)
Inductive clock_says : clock_option -> list text -> Prop :=
| says_off : clock_says (Status clock_sync_off) [lit "off"]
| says_init o : In o ["init"; "initial"]%string -> clock_says (Status clock_sync_init) [lit o]
| says_on : clock_says (Status clock_sync_on) [lit "on"]
| says_period n t : writes n t -> clock_says (Period n) [lit "period"; t]
| says_exchanges n t : writes n t -> clock_says (Exchanges n) [lit "exchanges-per-interval"; t].
Inductive clock_line : list clock_option -> list text -> Prop :=
| clock_line_nil : clock_line [] []
| clock_line_cons c cs w ws : clock_says c w -> clock_line cs ws -> clock_line (c :: cs) (w ++ ws).

Inductive says : option_ -> list text -> Prop :=
| says_id o v : In o ["-i"; "--id"]%string -> says (Id v) [lit o; v]
| says_federates o n t : In o ["-n"; "--number_of_federates"]%string -> writes n t -> says (Federates n) [lit o; t]
| says_port o n t : In o ["-p"; "--port"]%string -> writes n t -> says (Port n) [lit o; t]
| says_clock o cs w : In o ["-c"; "--clock_sync"]%string -> cs <> [] -> clock_line cs w -> says (ClockSync cs) (lit o :: w)
| says_auth o : In o ["-a"; "--auth"]%string -> says Auth [lit o]
| says_tracing o : In o ["-t"; "--tracing"]%string -> says Tracing [lit o]
| says_blank : says Blank [lit " "].
Inductive line : list option_ -> list text -> Prop :=
| line_nil : line [] []
| line_cons o os w ws : says o w -> line os ws -> line (o :: os) (w ++ ws).

(** The values that the documentation allows.  [c] is the status of clock
    synchronization given so far. *)
Fixpoint clock_valid (c : clock_sync_stat) (cs : list clock_option) : Prop :=
  match cs with
  | [] => True
  | Status c :: r => clock_valid c r
  | Period n :: r => c = clock_sync_on /\ 1 <= n < LLONG_MAX /\ clock_valid c r
  | Exchanges n :: r => c <> clock_sync_off /\ 1 <= n <= 2147483647 /\ clock_valid c r
  end.
Definition valid (auth_built : bool) (o : option_) : Prop :=
  match o with
  | Federates n => 1 <= n <= 2147483647
  | Port n => 0 < n < 65535
  | ClockSync cs => clock_valid clock_sync_init cs
  | Auth => auth_built = true
  | Id _ | Tracing | Blank => True
  end.

Definition is_clock (o : option_) : bool := match o with ClockSync _ => true | _ => false end.
Definition no_clock (os : list option_) : Prop := Forall (fun o => is_clock o = false) os.
(** The option for clock synchronization is the last one (or absent). *)
Definition clock_last (os : list option_) : Prop :=
  no_clock os \/ exists pre cs, os = pre ++ [ClockSync cs] /\ no_clock pre.

(** The value given last, or else the default. *)
Definition last_of {A B} (f : A -> option B) (l : list A) (d : B) : B :=
  fold_left (fun acc o => match f o with Some v => v | None => acc end) l d.
Definition get_id o := match o with Id v => Some v | _ => None end.
Definition get_federates o := match o with Federates n => Some n | _ => None end.
Definition get_port o := match o with Port n => Some n | _ => None end.
Definition get_auth o := match o with Auth => Some true | _ => None end.
Definition get_tracing o := match o with Tracing => Some true | _ => None end.
Definition get_status c := match c with Status s => Some s | _ => None end.
Definition get_period c := match c with Period n => Some n | _ => None end.
Definition get_exchanges c := match c with Exchanges n => Some n | _ => None end.
Definition clock_part (os : list option_) : list clock_option :=
  flat_map (fun o => match o with ClockSync cs => cs | _ => [] end) os.

Record means (os : list option_) (s : settings) : Prop := mkMeans {
  means_id : federation_id s = last_of get_id os (lit "Unidentified Federation");
  means_federates : federates s = last_of get_federates os 0;
  means_port : port s = last_of get_port os 0;
  means_clock : clock s = last_of get_status (clock_part os) clock_sync_init;
  means_period : period s = last_of get_period (clock_part os) 10000000;
  means_exchanges : exchanges s = last_of get_exchanges (clock_part os) 10;
  means_auth : auth s = last_of get_auth os false;
  means_tracing : tracing s = last_of get_tracing os false }.

(** The words that belong to the option for clock synchronization. *)
Definition clock_words : list text :=
  map lit ["off"; "init"; "initial"; "on"; "period"; "exchanges-per-interval"; " "]%string.
(** The names of the options (and the tolerated blank). *)
Definition option_names : list text :=
  map lit ["-i"; "--id"; "-n"; "--number_of_federates"; "-p"; "--port"; "-c"; "--clock_sync";
           "-a"; "--auth"; "-t"; "--tracing"; " "]%string.

(** Where a command line is wrong. *)
Inductive wrong (auth_built : bool) : list text -> Prop :=
| wrong_name a r : ~ In a option_names -> wrong auth_built (a :: r)
| wrong_missing o : In o ["-i"; "--id"; "-n"; "--number_of_federates"; "-p"; "--port"; "-c"; "--clock_sync"]%string ->
    wrong auth_built [lit o]
| wrong_federates o n t r : In o ["-n"; "--number_of_federates"]%string -> writes n t -> n = 0 \/ LLONG_MAX <= n ->
    wrong auth_built (lit o :: t :: r)
| wrong_sign o n t r : In o ["-n"; "--number_of_federates"]%string -> writes n t ->
    wrong auth_built (lit o :: (45 :: t) :: r)
| wrong_port o n t r : In o ["-p"; "--port"]%string -> writes n t -> n = 0 \/ 65535 <= n < two32 \/ two64 <= n ->
    wrong auth_built (lit o :: t :: r)
| wrong_auth o r : In o ["-a"; "--auth"]%string -> auth_built = false -> wrong auth_built (lit o :: r).
