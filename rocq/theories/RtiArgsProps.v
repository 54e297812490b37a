(** The command line of the coordinator: property C82. *)
From Verif Require Import Base CText RtiArgs ArgsSpec RtiArgsSpec ArgsProps RtiArgsProofs.
From Coq Require Import String.
Open Scope Z_scope.

(** The full statement has no hypothesis [clock_last]; it is refuted below. *)
Theorem C82_options_partial auth_built prog os words : line os words -> Forall (valid auth_built) os -> clock_last os ->
  exists s, process_args auth_built (prog :: words) settings0 = (true, s) /\ means os s.
Proof.
  intros L V C. exists (effects os settings0). split; [apply options_proof; assumption|apply effects_means].
Qed.
Print Assumptions C82_options_partial.

Lemma writes_lit n s ds : s = map (fun d => d + 48) ds -> ds <> [] -> Forall (fun d => 0 <= d <= 9) ds -> n = decimal ds -> writes n s.
Proof. intros. exists ds. auto. Qed.
Ltac write ds := apply (writes_lit _ _ ds); [reflexivity|discriminate|repeat constructor; lia|reflexivity].
Definition ex_options : list option_ :=
  [Id (lit "F1"); Federates 3; Tracing; Port 15045; ClockSync [Status clock_sync_on; Period 5000000; Exchanges 12]].
Definition ex_words : list text :=
  map lit ["-i"; "F1"; "--number_of_federates"; "3"; "-t"; "-p"; "15045"; "-c"; "on"; "period"; "5000000";
           "exchanges-per-interval"; "12"]%string.
Lemma ex_line : line ex_options ex_words.
Proof.
  apply (line_cons (Id (lit "F1")) _ [lit "-i"; lit "F1"] _); [apply (says_id "-i"); left; reflexivity|].
  apply (line_cons (Federates 3) _ [lit "--number_of_federates"; lit "3"] _); [apply says_federates; [right; left; reflexivity|write [3]]|].
  apply (line_cons Tracing _ [lit "-t"] _); [apply says_tracing; left; reflexivity|].
  apply (line_cons (Port 15045) _ [lit "-p"; lit "15045"] _); [apply says_port; [left; reflexivity|write [1; 5; 0; 4; 5]]|].
  apply (line_cons (ClockSync [Status clock_sync_on; Period 5000000; Exchanges 12]) [] (map lit ["-c"; "on"; "period"; "5000000"; "exchanges-per-interval"; "12"]%string) []); [|constructor].
  apply (says_clock "-c"); [left; reflexivity|discriminate|].
  apply (clock_line_cons (Status clock_sync_on) _ [lit "on"] _); [constructor|].
  apply (clock_line_cons (Period 5000000) _ [lit "period"; lit "5000000"] _); [constructor; write [5; 0; 0; 0; 0; 0; 0]|].
  apply (clock_line_cons (Exchanges 12) [] [lit "exchanges-per-interval"; lit "12"] []); [constructor; write [1; 2]|constructor].
Qed.
Example C82_options_ex : line ex_options ex_words /\ Forall (valid false) ex_options /\ clock_last ex_options /\
  process_args false (lit "RTI" :: ex_words) settings0 =
    (true, mkSettings (lit "F1") 3 15045 clock_sync_on 5000000 12 false true).
Proof.
  split; [exact ex_line|]. split; [|split].
  - repeat constructor; try discriminate; unfold LLONG_MAX; lia.
  - right. exists [Id (lit "F1"); Federates 3; Tracing; Port 15045], [Status clock_sync_on; Period 5000000; Exchanges 12].
    split; [reflexivity|repeat constructor].
  - vm_compute. reflexivity.
Qed.

(** The word behind the clock synchronization arguments has no influence at all:
    the program does the same whatever it is. *)
Theorem C82_ignored auth_built prog pre w o cs wc x y post : line pre w -> Forall (valid auth_built) pre -> no_clock pre ->
  In o ["-c"; "--clock_sync"]%string -> clock_line cs wc -> clock_valid clock_sync_init cs ->
  ~ In x clock_words -> ~ In y clock_words ->
  process_args auth_built (prog :: w ++ lit o :: wc ++ x :: post) settings0 =
  process_args auth_built (prog :: w ++ lit o :: wc ++ y :: post) settings0.
Proof. apply ignored_proof. Qed.
Print Assumptions C82_ignored.
Example C82_ignored_ex : process_args false (map lit ["RTI"; "-c"; "on"; "-t"]%string) settings0 =
  process_args false (map lit ["RTI"; "-c"; "on"; "rubbish"]%string) settings0 /\
  ~ In (lit "-t") clock_words /\ ~ In (lit "rubbish") clock_words.
Proof. split; [reflexivity|]. split; intros X; vm_compute in X; intuition discriminate. Qed.

(** Without [clock_last] the claim of [C82_options_partial] fails: an option is
    dropped silently, or a valid command line is rejected. *)
Theorem C82_dropped_refuted : exists os words s, line os words /\ Forall (valid false) os /\
  process_args false (lit "RTI" :: words) settings0 = (true, s) /\
  last_of get_tracing os false = true /\ tracing s = false.
Proof.
  exists [ClockSync [Status clock_sync_off]; Tracing], [lit "-c"; lit "off"; lit "-t"]. eexists.
  split; [|split; [|split; [vm_compute; reflexivity|split; reflexivity]]].
  - apply (line_cons (ClockSync [Status clock_sync_off]) _ [lit "-c"; lit "off"] _).
    + apply (says_clock "-c"); [left; reflexivity|discriminate|]. apply (clock_line_cons _ [] [lit "off"] []); constructor.
    + apply (line_cons Tracing [] [lit "-t"] []); [|constructor]. apply says_tracing. left. reflexivity.
  - repeat constructor.
Qed.
Print Assumptions C82_dropped_refuted.
Theorem C82_order_refuted : exists os words s, line os words /\ Forall (valid false) os /\
  process_args false (lit "RTI" :: words) settings0 = (false, s).
Proof.
  exists [ClockSync [Status clock_sync_init]; Federates 3], [lit "-c"; lit "init"; lit "-n"; lit "3"]. eexists.
  split; [|split; [|vm_compute; reflexivity]].
  - apply (line_cons (ClockSync [Status clock_sync_init]) _ [lit "-c"; lit "init"] _).
    + apply (says_clock "-c"); [left; reflexivity|discriminate|].
      apply (clock_line_cons _ [] [lit "init"] []); [apply (says_init "init"); left; reflexivity|constructor].
    + apply (line_cons (Federates 3) [] [lit "-n"; lit "3"] []); [|constructor]. apply says_federates; [left; reflexivity|write [3]].
  - repeat constructor; lia.
Qed.
Print Assumptions C82_order_refuted.

(** A wrong command line is not accepted. *)
Theorem C82_rejected auth_built prog pre w r : line pre w -> Forall (valid auth_built) pre -> no_clock pre ->
  wrong auth_built r -> exists s, process_args auth_built (prog :: w ++ r) settings0 = (false, s).
Proof. intros L V C W. exists (effects pre settings0). apply rejected_proof; assumption. Qed.
Print Assumptions C82_rejected.
Example C82_rejected_ex : wrong false (map lit ["--nubmer"; "3"]%string) /\ wrong false (map lit ["-p"; "65535"]%string) /\
  wrong false [lit "-n"; lit "-3"] /\ fst (process_args false (map lit ["RTI"; "-n"; "3"; "-p"; "65535"]%string) settings0) = false.
Proof.
  split; [constructor; intros X; vm_compute in X; intuition discriminate|].
  split; [apply (wrong_port false "-p" 65535); [left; reflexivity|write [6; 5; 5; 3; 5]|unfold two32; lia]|].
  split; [apply (wrong_sign false "-n" 3 (lit "3")); [left; reflexivity|write [3]]|reflexivity].
Qed.

(** The program then ends with exit status -1, if no number of federates and no
    tracing was given before the error.  The full statement has no such
    hypotheses; it is refuted below. *)
Theorem C82_exit_partial auth_built prog pre w r : line pre w -> Forall (valid auth_built) pre -> no_clock pre ->
  Forall (fun o => get_federates o = None /\ get_tracing o = None) pre -> wrong auth_built r ->
  main_args auth_built (prog :: w ++ r) = Ok (Exits (-1)).
Proof.
  intros L V C N W. unfold main_args. rewrite (rejected_proof _ _ _ _ _ L V C W).
  destruct (effects_fields pre settings0) as (_ & HF & _ & _ & _ & _ & _ & HT).
  unfold termination_unallocated. rewrite HF, HT.
  rewrite !last_of_none; [reflexivity| |]; (eapply Forall_impl; [|exact N]); intros o [? ?]; assumption.
Qed.
Print Assumptions C82_exit_partial.
Example C82_exit_ex : main_args false (map lit ["RTI"; "-i"; "F1"; "--bogus"]%string) = Ok (Exits (-1)) /\
  Forall (fun o => get_federates o = None /\ get_tracing o = None) [Id (lit "F1")] /\ wrong false [lit "--bogus"].
Proof. split; [reflexivity|]. split; [repeat constructor|]. constructor. intros X; vm_compute in X; intuition discriminate. Qed.

(** With a number of federates before the error the exit handler dereferences the
    null pointer that will hold the array of federates. *)
Theorem C82_exit_refuted : exists os words r, line os words /\ Forall (valid false) os /\ no_clock os /\ wrong false r /\
  main_args false (lit "RTI" :: words ++ r) = UB.
Proof.
  exists [Federates 2], [lit "-n"; lit "2"], [lit "--bogus"].
  split; [|split; [|split; [|split]]].
  - apply (line_cons (Federates 2) [] [lit "-n"; lit "2"] []); [|constructor]. apply says_federates; [left; reflexivity|write [2]].
  - repeat constructor; lia.
  - repeat constructor.
  - constructor. intros X; vm_compute in X; intuition discriminate.
  - reflexivity.
Qed.
Print Assumptions C82_exit_refuted.
Theorem C82_exit_tracing_refuted : exists os words r, line os words /\ Forall (valid false) os /\ no_clock os /\ wrong false r /\
  Forall (fun o => get_federates o = None) os /\ main_args false (lit "RTI" :: words ++ r) = UB.
Proof.
  exists [Tracing], [lit "-t"], [lit "--bogus"].
  split; [|split; [|split; [|split; [|split]]]].
  - apply (line_cons Tracing [] [lit "-t"] []); [|constructor]. apply says_tracing; left; reflexivity.
  - repeat constructor.
  - repeat constructor.
  - constructor. intros X; vm_compute in X; intuition discriminate.
  - repeat constructor.
  - reflexivity.
Qed.
Print Assumptions C82_exit_tracing_refuted.

(** Numbers of federates below 65535 get a record each, and the records are freed
    at the end. *)
Theorem C82_records ndebug auth_built prog os words n : line os words -> Forall (valid auth_built) os -> clock_last os ->
  last_of get_federates os 0 = n -> 1 <= n < 65535 ->
  exists s, main_args auth_built (prog :: words) = Ok (Starts s) /\ federates s = n /\
    allocate ndebug (federates s) = Allocated n /\ free_scheduling_nodes n (federates s) = Ok n.
Proof.
  intros L V C F B. exists (effects os settings0). unfold main_args. rewrite (options_proof _ _ _ _ L V C).
  assert (E : federates (effects os settings0) = n) by (rewrite <- F; apply (means_federates _ _ (effects_means os))).
  split; [reflexivity|]. rewrite E. split; [reflexivity|]. unfold allocate, free_scheduling_nodes, uint16, UINT16_MAX. split.
  - replace (negb ndebug && negb (n <? 65535)) with false by lia. replace (65535 <? n) with false by lia. f_equal. lia.
  - rewrite Z.mod_small by lia. replace (n <=? n) with true by lia. reflexivity.
Qed.
Print Assumptions C82_records.
Example C82_records_ex : line ex_options ex_words /\ last_of get_federates ex_options 0 = 3 /\ allocate false 3 = Allocated 3 /\
  free_scheduling_nodes 3 3 = Ok 3.
Proof. split; [exact ex_line|]. repeat split. Qed.

(** Numbers that do not fit the type of the field are accepted and changed. *)
Theorem C82_number_refuted : exists n t s, writes n t /\
  main_args false [lit "RTI"; lit "-n"; t] = Ok (Starts s) /\ n = 4294967298 /\ federates s = 2.
Proof.
  exists 4294967298, (lit "4294967298"). eexists.
  split; [write [4; 2; 9; 4; 9; 6; 7; 2; 9; 8]|]. split; [vm_compute; reflexivity|]. split; reflexivity.
Qed.
Print Assumptions C82_number_refuted.
Theorem C82_port_refuted : exists n t s, writes n t /\
  main_args false [lit "RTI"; lit "-p"; t] = Ok (Starts s) /\ 65535 <= n /\ port s = 80.
Proof.
  exists 4294967376, (lit "4294967376"). eexists.
  split; [write [4; 2; 9; 4; 9; 6; 7; 3; 7; 6]|]. split; [vm_compute; reflexivity|]. split; [lia|reflexivity].
Qed.
Print Assumptions C82_port_refuted.
Theorem C82_exchanges_refuted : exists n t s, writes n t /\
  main_args false [lit "RTI"; lit "-c"; lit "on"; lit "exchanges-per-interval"; t] = Ok (Starts s) /\ 1 <= n /\ exchanges s = 0.
Proof.
  exists 4294967296, (lit "4294967296"). eexists.
  split; [write [4; 2; 9; 4; 9; 6; 7; 2; 9; 6]|]. split; [vm_compute; reflexivity|]. split; [lia|reflexivity].
Qed.
Print Assumptions C82_exchanges_refuted.
(** A negative period is accepted, and is a period of more than 580 years. *)
Theorem C82_period_refuted : exists n t s, writes n t /\
  main_args false [lit "RTI"; lit "-c"; lit "on"; lit "period"; 45 :: t] = Ok (Starts s) /\ period s = two64 - n /\ n = 5.
Proof.
  exists 5, (lit "5"). eexists. split; [write [5]|]. split; [vm_compute; reflexivity|]. split; reflexivity.
Qed.
Print Assumptions C82_period_refuted.
(** So is a word that is not a number, if it begins with digits, and anything in
    place of off, init and on. *)
Theorem C82_junk_refuted : exists t s, (forall n, ~ writes n t) /\
  main_args false [lit "RTI"; lit "-n"; t] = Ok (Starts s) /\ federates s = 3.
Proof.
  exists (lit "3x"). eexists. split; [|split; [vm_compute; reflexivity|reflexivity]].
  intros n (ds & _ & F & E & _). destruct ds as [|a [|b [|c ds]]]; cbn in E; try discriminate.
  injection E as E1 E2. inversion F as [|? ? _ F']; subst. inversion F' as [|? ? Hb _]; subst. lia.
Qed.
Print Assumptions C82_junk_refuted.
Theorem C82_status_refuted : exists w, ~ In w clock_words /\
  main_args false [lit "RTI"; lit "-c"; w] = Ok (Starts settings0).
Proof. exists (lit "onn"). split; [intros X; vm_compute in X; intuition discriminate|reflexivity]. Qed.
Print Assumptions C82_status_refuted.
(** Between 2^31 and 2^32 the number becomes negative: no record is allocated, and
    the release at the end reads outside the array; with the assertion compiled
    out, 65536 federates or more are never ready. *)
Theorem C82_free_refuted : exists n t s k, writes n t /\ main_args false [lit "RTI"; lit "-n"; t] = Ok (Starts s) /\
  allocate false (federates s) = Allocated k /\ k < n /\ free_scheduling_nodes k (federates s) = UB.
Proof.
  exists 4294967295, (lit "4294967295"). do 2 eexists.
  split; [write [4; 2; 9; 4; 9; 6; 7; 2; 9; 5]|]. split; [vm_compute; reflexivity|]. split; [vm_compute; reflexivity|].
  split; [lia|vm_compute; reflexivity].
Qed.
Print Assumptions C82_free_refuted.
Theorem C82_forever_refuted : exists n t s, writes n t /\ main_args false [lit "RTI"; lit "-n"; t] = Ok (Starts s) /\
  valid false (Federates n) /\ allocate true (federates s) = NeverEnds /\ allocate false (federates s) = Aborts.
Proof.
  exists 65536, (lit "65536"). eexists.
  split; [write [6; 5; 5; 3; 6]|]. split; [vm_compute; reflexivity|]. split; [split; lia|]. split; vm_compute; reflexivity.
Qed.
Print Assumptions C82_forever_refuted.
