(** * C93: the sensor simulator shows what is printed and schedules what is typed *)
From Verif Require Import Base Sensor SensorSpec SensorProofs.
Local Open Scope Z_scope.

(** Whatever is called between start and end, and whenever the output thread runs: what has
    been shown, followed by what is still in the queue, is what was printed, in order; at
    the end everything has been shown.  For texts without percent signs, and without
    conversions when there is a log file. *)
Theorem C93_shown_partial : forall c log l, Forall (plain log) l ->
  (exists s, run c init (Start log :: l) = Ok s /\ map content (display s) ++ queue s = posted l) /\
  (exists s, run c init (Start log :: l ++ [Finish]) = Ok s /\ map content (display s) = posted l /\ queue s = []).
Proof. exact all_shown. Qed.
Print Assumptions C93_shown_partial.

(** Texts start inside the borders of their windows. *)
Theorem C93_inside : forall c l s, 3 <= tick_w c -> 3 <= tick_h c -> 2 <= print_h c -> run c init l = Ok s -> Forall (inside c) (display s).
Proof. intros c l s W H P E. refine (proj1 (placed_run c W H P l init s _ E)). split; [constructor|discriminate]. Qed.
Print Assumptions C93_inside.

(** The results of registering a key are as documented (sensor_simulator.h:77-96): 3 without
    an action, 2 for a key that is not supported, 1 for a key that has an action, else 0. *)
Theorem C93_codes : forall rs key a, let s := fold_left (fun s r => fst (register (fst r) (snd r) s)) rs init in
  (a = None -> snd (register key a s) = 3) /\
  (a <> None -> ~ supported key -> snd (register key a s) = 2) /\
  (a <> None -> supported key -> first key rs <> None -> snd (register key a s) = 1) /\
  (a <> None -> supported key -> first key rs = None -> snd (register key a s) = 0).
Proof.
  intros rs key a s. rewrite register_code. change s with (reg_all rs init). pose proof (supported_dec key) as D. split; [|split; [|split]].
  - intros ->. reflexivity.
  - intros A NS. destruct a as [a|]; [|congruence]. destruct (_ && _); [reflexivity|]. exfalso. apply NS, D. reflexivity.
  - intros A SK F. destruct a as [a|]; [|congruence]. rewrite (proj2 D SK), reg_look by exact SK. unfold look. cbn. destruct (first key rs); [|congruence]. destruct (key =? NEWLINE), (key =? 0); reflexivity.
  - intros A SK F. destruct a as [a|]; [|congruence]. rewrite (proj2 D SK), reg_look by exact SK. unfold look. cbn. rewrite F. destruct (key =? NEWLINE), (key =? 0); reflexivity.
Qed.
Print Assumptions C93_codes.

(** A character that is typed schedules the action that was registered first for it, if any,
    and then the one for any key, with the character as payload. *)
Theorem C93_typed : forall c log rs k, 1 <= k < 256 -> exists s, run c init (Start log :: map (fun r => Register (fst r) (snd r)) rs ++ [Typed k]) = Ok s /\
  scheduled s = map (fun a => (a, k)) (option_list (if (k =? 10) || ((32 <=? k) && (k <=? 127)) then first k rs else None) ++ option_list (first 0 rs)).
Proof. exact key_typed. Qed.
Print Assumptions C93_typed.

(** ** What does not hold *)
(** A text is used as a format: a percent sign, alone, is undefined (sensor_simulator.c:306,
    322), and of two one is lost. *)
Theorem C93_percent_refuted : forall c log, run c init [Start log; ShowTick [37]; Show] = UB /\ run c init [Start log; Print [53; 37] false; Show] = UB /\
  exists s, run c init [Start log; Print [37; 37] false; Show] = Ok s /\ display s = [LineAt [37] 0].
Proof.
  intros c log. split; [reflexivity|]. split; [cbn; destruct log; reflexivity|].
  exists (mkState (fun _ => None) None None [] Running log 1 1 (if print_h c - 1 <=? 1 then 0 else 1) [LineAt [37] 0] []). split; [cbn; destruct log; reflexivity|reflexivity].
Qed.
Print Assumptions C93_percent_refuted.

(** With a log file, a message with arguments is undefined: they are used twice
    (sensor_simulator.c:207-212). *)
Theorem C93_log_refuted : forall c t, run c init [Start true; Print t true] = UB.
Proof. reflexivity. Qed.
Print Assumptions C93_log_refuted.

(** "Start the sensor simulator if it has not been already started": a second call is
    undefined, whatever comes between the two (sensor_simulator.c:370-372). *)
Theorem C93_restart_refuted : forall c log log' l, Forall (plain log) l -> run c init (Start log :: l ++ [Start log']) = UB.
Proof.
  intros c log log' l F. cbn [run step out init]. rewrite run_app. set (s0 := mkState _ _ _ _ _ _ _ _ _ _ _).
  destruct (shows c log l s0 F eq_refl eq_refl (Forall_nil _)) as (s & E1 & _ & R & _). rewrite E1. cbn [run step]. rewrite R. reflexivity.
Qed.
Print Assumptions C93_restart_refuted.

(** A program that ends the simulator by itself: the call at the exit of the program
    (sensor_simulator.c:392) is undefined, as it joins the thread again. *)
Theorem C93_end_twice_refuted : forall c l, run c init (l ++ [Finish; Finish]) = UB.
Proof.
  intros c l. rewrite run_app. destruct (run c init l) as [s|]; [|reflexivity]. cbn [run step]. destruct (out s); try reflexivity. destruct (flush c s); reflexivity.
Qed.
Print Assumptions C93_end_twice_refuted.

(** Keys that are not characters, such as the cursor keys of ncurses (259 for up), schedule
    the action for any key with the low byte, which is the code of another character. *)
Theorem C93_special_refuted : forall c log a, exists s, run c init [Start log; Register 0 (Some a); Typed 259] = Ok s /\ scheduled s = [(a, 3)].
Proof. intros. eexists. split; reflexivity. Qed.
Print Assumptions C93_special_refuted.

(** A tick of more than one character may be written over the border. *)
Theorem C93_border_refuted : exists c l s t x y, run c init l = Ok s /\ In (TickAt t x y) (display s) /\ tick_w c - 2 < x + Z.of_nat (length t) - 1.
Proof. exists (mkConfig 4 4 4), [Start false; ShowTick [42; 42; 42]; Show]. do 4 eexists. split; [reflexivity|]. split; [left; reflexivity|]. cbn. lia. Qed.
Print Assumptions C93_border_refuted.

(** ** The hypotheses can be met *)
Definition session : list op := [Register 97 (Some 1%nat); Print [72; 105] false; ShowTick [46]; Show; Typed 97; ShowTick [46]; Show; ShowTick [46]; Print [33] true; Register 0 (Some 2%nat); Typed 97].
Example C93_session : Forall (plain false) session /\ match run (mkConfig 4 4 4) init (Start false :: session ++ [Finish]) with
  | Ok s => display s = [LineAt [72; 105] 0; TickAt [46] 1 1; TickAt [46] 2 1; TickAt [46] 1 2; LineAt [33] 1] /\ scheduled s = [(1%nat, 97); (1%nat, 97); (2%nat, 97)]
  | UB => False end.
Proof.
  split; [|vm_compute; split; reflexivity]. unfold session.
  repeat (apply Forall_cons; [cbn; first [exact Logic.I|split; [intros [X|[X|[]]]; discriminate|discriminate]|split; [intros [X|[]]; discriminate|discriminate]|intros [X|[]]; discriminate]|]). apply Forall_nil.
Qed.
