(** Printed messages (C95). *)
From Verif Require Import Base CText Logging LoggingSpec LoggingProofs.
From Coq Require Import String.
Local Open Scope Z_scope.
Local Open Scope list_scope.

(** C95 in full: a message is printed exactly when its level is at most the larger of the level of the program and the level
    registered last; it is printed in one piece, with the identification of the process and its prefix in front, with its
    arguments in their places and a newline at the end, by the function registered last or on the standard output.
    Missing (refuted below): the macros follow the level of the program only. *)
Theorem C95_printed_partial : forall c ops k format args t out, proper (c_process c) -> 0 <= c_level c -> asks c format args t ->
  Forall not_fatal ops -> run c init ops = Ok out ->
  let (f, l) := registered (None, -1) ops in
  is_macro k = false \/ l <= c_level c ->
  exists who, identifies (c_process c) who /\
  if importance k <=? Z.max (c_level c) l
  then exists e, run c init (ops ++ [Print k format args]) = Ok (out ++ e :: match k with Fatal => [Exit 1] | _ => [] end) /\
         writes c e f (who ++ prefix_of k ++ t ++ [10])
  else run c init (ops ++ [Print k format args]) = Ok out.
Proof.
  intros c ops k format args t out P L A F R. destruct (registered (None, -1) ops) as [f l] eqn:Eg. intros M.
  rewrite run_app by exact F. rewrite R. cbn [bind]. change (fn init, fn_level init) with (@None nat, -1). rewrite Eg. cbn [fst snd].
  destruct (message_print_is c (mkState f l) k format args t P L A) as (who & W & X). cbn [fn fn_level] in X. exists who. split; [exact W|].
  assert (Pr : forall q, message_print c (reads_same (mkState f l)) (prefix_of k) format args (importance k) = Ok q ->
    (importance k <= Z.max (c_level c) l \/ q = []) ->
    run c (mkState f l) [Print k format args] = Ok (q ++ match k with Fatal => [Exit 1] | _ => [] end)).
  { intros q E D. unfold run. destruct k; unfold print; cbn [importance prefix_of is_macro] in *;
      try (change (lit "LOG: ") with (prefix_of Log)); try (change LEVEL_INFO with 2; change LEVEL_LOG with 3; change LEVEL_DEBUG with 4; change LEVEL_ERROR with 0; change LEVEL_WARNING with 1);
      cbn [prefix_of]; try (rewrite E; cbn [bind]; rewrite ?app_nil_r; reflexivity).
    - destruct (3 <=? c_level c) eqn:El; [rewrite E; cbn [bind]; reflexivity|]. apply Z.leb_gt in El. destruct M as [M|M]; [discriminate|].
      destruct D as [D| ->]; [lia|]. reflexivity.
    - destruct (4 <=? c_level c) eqn:El; [rewrite E; cbn [bind]; reflexivity|]. apply Z.leb_gt in El. destruct M as [M|M]; [discriminate|].
      destruct D as [D| ->]; [lia|]. reflexivity. }
  destruct (importance k <=? Z.max (c_level c) l) eqn:Ei.
  - destruct X as (e & E & Wr). exists e. rewrite (Pr _ E) by (left; apply Z.leb_le; exact Ei). cbn [bind app]. auto.
  - rewrite (Pr _ X) by auto. destruct k; cbn [bind app]; rewrite ?app_nil_r; try reflexivity.
    exfalso. apply Z.leb_gt in Ei. cbn [importance] in Ei. lia.
Qed.
Print Assumptions C95_printed_partial.

(** Errors and fatal errors are always printed, and a fatal error ends the program with a failure after that; nothing else ends it. *)
Theorem C95_errors : forall c s k format args t, proper (c_process c) -> 0 <= c_level c -> asks c format args t ->
  k = Error \/ k = Fatal ->
  exists who e, identifies (c_process c) who /\ writes c e (fn s) (who ++ prefix_of k ++ t ++ [10]) /\
  print c (reads_same s) k format args = Ok (e :: match k with Fatal => [Exit 1] | _ => [] end).
Proof.
  intros c s k format args t P L A K. destruct (message_print_is c s k format args t P L A) as (who & W & X).
  replace (importance k <=? Z.max (c_level c) (fn_level s)) with true in X by (symmetry; apply Z.leb_le; destruct K as [-> | ->]; cbn [importance]; lia).
  destruct X as (e & E & Wr). exists who, e. split; [exact W|]. split; [exact Wr|].
  destruct K as [-> | ->]; unfold print; cbn [importance prefix_of] in E; change LEVEL_ERROR with 0; rewrite E; reflexivity.
Qed.
Print Assumptions C95_errors.
Theorem C95_no_exit : forall c r k format args l code, k <> Fatal -> print c r k format args = Ok l -> ~ In (Exit code) l.
Proof.
  intros c r k format args l code K E.
  assert (M : forall p n x, message_print c r p format args n = Ok x -> ~ In (Exit code) x).
  { intros p n x Y. unfold message_print in Y. destruct (n <=? _); [|injection Y as <-; auto]. destruct (fn (s3 r)).
    - destruct (fn (s4 r)); [|discriminate]. injection Y as <-. intros [Q|Q]; [discriminate|exact Q].
    - destruct (vprintf _ _ _ _); [|discriminate]. cbn [bind] in Y. injection Y as <-. intros [Q|Q]; [discriminate|exact Q]. }
  destruct k; try congruence; unfold print in E; try (eapply M; exact E).
  - destruct (LEVEL_LOG <=? c_level c); [eapply M; exact E|injection E as <-; auto].
  - destruct (LEVEL_DEBUG <=? c_level c); [eapply M; exact E|injection E as <-; auto].
Qed.
Print Assumptions C95_no_exit.
(** Memory: the text fits the buffer that is allocated for it, and nothing of it is cut off: this is part of the above, since the
    newline at the end is printed. *)

(** The macros LF_PRINT_LOG and LF_PRINT_DEBUG print nothing when only the registered level asks for them. *)
Theorem C95_macro_refuted : forall c f k format args l, is_macro k = true -> c_level c < importance k ->
  run c init [Register f l; Print k format args] = Ok [].
Proof.
  intros c f k format args l K L. destruct k; try discriminate; cbn [importance] in L; cbn [run]; unfold print;
    change LEVEL_LOG with 3; change LEVEL_DEBUG with 4;
    [replace (3 <=? c_level c) with false by (symmetry; apply Z.leb_gt; exact L)|replace (4 <=? c_level c) with false by (symmetry; apply Z.leb_gt; exact L)]; reflexivity.
Qed.
Print Assumptions C95_macro_refuted.
(** "0, 1, and 2 are treated identically and lf_print_error, lf_print_warning, and lf_print all result in printed output"
    (logging.h:16-18): at level 1 (warning) [lf_print] prints nothing, at level 0 warnings neither. *)
Theorem C95_levels_refuted : forall c format args, 0 <= c_level c ->
  (c_level c < 2 -> run c init [Print Info format args] = Ok []) /\ (c_level c < 1 -> run c init [Print Warning format args] = Ok []).
Proof.
  intros c format args L. split; intros K; cbn [run]; unfold print, message_print; cbn [reads_same s1 s2 fn_level init];
    (replace (c_level c <? -1) with false by (symmetry; apply Z.ltb_ge; lia)); (replace (c_level c <? 0) with false by (symmetry; apply Z.ltb_ge; lia)).
  - change LEVEL_INFO with 2. replace (2 <=? c_level c) with false by (symmetry; apply Z.leb_gt; lia). reflexivity.
  - change LEVEL_WARNING with 1. replace (1 <=? c_level c) with false by (symmetry; apply Z.leb_gt; lia). reflexivity.
Qed.
Print Assumptions C95_levels_refuted.
(** "The level of messages to redirect" (logging.h:95): a function gets every message that is printed, whatever level it was
    registered for. *)
Theorem C95_redirect_refuted : forall c f l k format args, 0 <= c_level c -> k <> Fatal -> importance k <= c_level c ->
  exists m, run c init [Register (Some f) l; Print k format args] = Ok [Call f m args].
Proof.
  intros c f l k format args L K I. exists (compose (c_process c) (prefix_of k) format).
  assert (E : message_print c (reads_same (mkState (Some f) l)) (prefix_of k) format args (importance k) = Ok [Call f (compose (c_process c) (prefix_of k) format) args]).
  { unfold message_print. cbn [reads_same s1 s2 s3 s4 fn fn_level].
    set (pl := if c_level c <? l then l else c_level c).
    assert (M : pl = Z.max (c_level c) l) by (unfold pl; destruct (Z.ltb_spec (c_level c) l); lia).
    replace (pl <? 0) with false by (symmetry; apply Z.ltb_ge; lia). replace (importance k <=? pl) with true by (symmetry; apply Z.leb_le; lia). reflexivity. }
  destruct k; try congruence; cbn [importance prefix_of] in E, I; cbn [run]; unfold print;
    try (change LEVEL_INFO with 2); try (change LEVEL_LOG with 3); try (change LEVEL_DEBUG with 4); try (change LEVEL_ERROR with 0); try (change LEVEL_WARNING with 1);
    try (replace (3 <=? c_level c) with true by (symmetry; apply Z.leb_le; lia)); try (replace (4 <=? c_level c) with true by (symmetry; apply Z.leb_le; lia));
    rewrite E; reflexivity.
Qed.
Print Assumptions C95_redirect_refuted.
(** [lf_print_error_system_failure] reports whatever [errno] is after its first message was printed, not the error that
    occurred. *)
Theorem C95_errno_refuted : forall c s strerror errno errno_after format args t digits, proper (c_process c) -> 0 <= c_level c ->
  asks c format args t -> c_conv c (lit "d") (AInt errno_after) = Some digits ->
  (forall x, c_conv c (lit "s") (AStr x) = Some x) ->
  exists who1 who2 e1 e2, identifies (c_process c) who1 /\ identifies (c_process c) who2 /\
  system_failure c (reads_same s) strerror errno errno_after format args = Ok [e1; e2; Exit 1] /\
  writes c e1 (fn s) (who1 ++ lit "ERROR: " ++ t ++ [10]) /\
  writes c e2 (fn s) (who2 ++ lit "FATAL ERROR: " ++ (lit "Error " ++ digits ++ lit ": " ++ strerror errno_after) ++ [10]).
Proof.
  intros c s strerror errno errno_after format args t ds P L A D S.
  assert (A2 : asks c (lit "Error %d: %s") [AInt errno_after; AStr (strerror errno_after)] (lit "Error " ++ ds ++ lit ": " ++ strerror errno_after)).
  { unfold asks. cbn [lit vprintf Z.eqb percent Ascii.nat_of_ascii Z.of_nat].
    repeat match goal with |- context [if ?b then _ else _] => let v := eval vm_compute in b in change b with v; cbv iota end.
    cbn [app]. change (c_conv c _ (AInt errno_after)) with (c_conv c (lit "d") (AInt errno_after)). rewrite D.
    change (c_conv c _ (AStr (strerror errno_after))) with (c_conv c (lit "s") (AStr (strerror errno_after))). rewrite S. cbn [bind app]. rewrite app_nil_r. reflexivity. }
  destruct (C95_errors c s Error format args t P L A (or_introl eq_refl)) as (w1 & e1 & I1 & W1 & E1).
  destruct (C95_errors c s Fatal _ _ _ P L A2 (or_intror eq_refl)) as (w2 & e2 & I2 & W2 & E2).
  exists w1, w2, e1, e2. split; [exact I1|]. split; [exact I2|]. split; [|split; assumption]. unfold system_failure. rewrite E1. cbn [bind]. rewrite E2. reflexivity.
Qed.
Print Assumptions C95_errno_refuted.
(** A thread that prints while another one removes the function calls NULL: the function is read twice, without a lock. *)
Theorem C95_race_refuted : forall c s f l k format args, 0 <= c_level c -> importance k <= c_level c -> fn s = Some f ->
  print c (mkReads s s s (mkState None l)) k format args = UB.
Proof.
  intros c s f l k format args L I F.
  assert (E : message_print c (mkReads s s s (mkState None l)) (prefix_of k) format args (importance k) = UB).
  { unfold message_print. cbn [s1 s2 s3 s4 fn]. rewrite F.
    set (pl := if c_level c <? fn_level s then fn_level s else c_level c).
    assert (M : pl = Z.max (c_level c) (fn_level s)) by (unfold pl; destruct (Z.ltb_spec (c_level c) (fn_level s)); lia).
    replace (pl <? 0) with false by (symmetry; apply Z.ltb_ge; lia). replace (importance k <=? pl) with true by (symmetry; apply Z.leb_le; lia). reflexivity. }
  destruct k; cbn [importance prefix_of] in E, I; unfold print;
    try (change LEVEL_INFO with 2); try (change LEVEL_LOG with 3); try (change LEVEL_DEBUG with 4); try (change LEVEL_ERROR with 0); try (change LEVEL_WARNING with 1);
    try (replace (3 <=? c_level c) with true by (symmetry; apply Z.leb_le; lia)); try (replace (4 <=? c_level c) with true by (symmetry; apply Z.leb_le; lia));
    rewrite E; reflexivity.
Qed.
Print Assumptions C95_race_refuted.

(** ** Concrete cases *)
Definition conv0 (spec : text) (a : arg) : option text :=
  match a with
  | AInt z => if str_eqb spec (lit "d") || str_eqb spec (lit "5ld") then Some (dec 10 z) else None
  | AStr t => if str_eqb spec (lit "s") then Some t else None
  end.
Definition fed0 : config := mkConfig 2 (Federate 12 (lit "federate__source")) conv0.
Definition ops0 : list op := [Print Warning (lit "x") []; Register (Some 7%nat) 3; Print Debug (lit "hidden") []].
Example C95_hypotheses : proper (c_process fed0) /\ 0 <= c_level fed0 /\ asks fed0 (lit "%d%% of %s, %5ld") [AInt 50; AStr (lit "all"); AInt 3] (lit "50% of all, 3") /\
  Forall not_fatal ops0 /\ run fed0 init ops0 = Ok [Stdout (lit "Fed 12 (source): WARNING: x" ++ [10])] /\ registered (None, -1) ops0 = (Some 7%nat, 3).
Proof. vm_compute. repeat split; try discriminate; try (repeat constructor); intuition discriminate. Qed.
Example C95_session : run fed0 init (ops0 ++ [Print Log (lit "%d") [AInt 5]; Register None (-1); Print Fatal (lit "%s") [AStr (lit "end")]; Print Info (lit "never") []]) =
  Ok [Stdout (lit "Fed 12 (source): WARNING: x" ++ [10]); Call 7 (lit "Fed 12 (source): LOG: %d" ++ [10]) [AInt 5];
      Stdout (lit "Fed 12 (source): FATAL ERROR: end" ++ [10]); Exit 1].
Proof. vm_compute. reflexivity. Qed.
Example C95_processes : run (mkConfig 4 Rti conv0) init [Print MacroDebug (lit "a") []] = Ok [Stdout (lit "RTI: DEBUG: a" ++ [10])] /\
  run (mkConfig 2 Plain conv0) init [Print Info (lit "a") []; Print MacroLog (lit "b") []] = Ok [Stdout (lit "a" ++ [10])].
Proof. vm_compute. auto. Qed.
Example C95_refuted_nontrivial : print fed0 (mkReads (mkState (Some 1%nat) 2) (mkState (Some 1%nat) 2) (mkState (Some 1%nat) 2) (mkState None (-1))) Info (lit "a") [] = UB /\
  run fed0 init [Register (Some 1%nat) 0; Print Info (lit "a") []] = Ok [Call 1 (lit "Fed 12 (source): a" ++ [10]) []] /\
  run fed0 init [Register (Some 1%nat) 4; Print MacroDebug (lit "a") []] = Ok [].
Proof. vm_compute. auto. Qed.
Example C95_errno_nontrivial : system_failure fed0 (reads_same init) (fun e => if e =? 2 then lit "No such file" else lit "Not a terminal") 2 25 (lit "open") [] =
  Ok [Stdout (lit "Fed 12 (source): ERROR: open" ++ [10]); Stdout (lit "Fed 12 (source): FATAL ERROR: Error 25: Not a terminal" ++ [10]); Exit 1].
Proof. vm_compute. reflexivity. Qed.
