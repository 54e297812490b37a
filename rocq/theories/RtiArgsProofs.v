(** Proofs about the model of the coordinator's command line. *)
From Verif Require Import Base CText RtiArgs ArgsSpec RtiArgsSpec ArgsProps.
From Coq Require Import String.
Open Scope Z_scope.

Lemma str_eqb_eq a : forall b, str_eqb a b = true <-> a = b.
Proof.
  induction a as [|x a IH]; intros [|y b]; cbn [str_eqb]; try (split; congruence).
  rewrite andb_true_iff, IH, Z.eqb_eq. split; [intros [-> ->]; reflexivity|intros [= -> ->]; auto].
Qed.
Lemma opt_In a names : opt a names = true <-> In a (map lit names).
Proof.
  unfold opt. rewrite existsb_exists, in_map_iff. split; intros (x & A & B).
  - apply str_eqb_eq in B. exists x. auto.
  - exists x. split; [assumption|apply str_eqb_eq; auto].
Qed.
Lemma opt_false a names : ~ In a (map lit names) -> opt a names = false.
Proof. intros N. destruct (opt a names) eqn:E; [|reflexivity]. apply opt_In in E. contradiction. Qed.

(** ** Clock synchronization. *)
Lemma clock_args_length l : forall s, (List.length (snd (process_clock_sync_args l s)) <= List.length l)%nat.
Proof.
  assert (G : forall n l s, (List.length l <= n)%nat -> (List.length (snd (process_clock_sync_args l s)) <= List.length l)%nat).
  { clear l. induction n as [|n IH]; intros [|a r] s L; cbn [process_clock_sync_args snd List.length] in *; try lia.
    repeat match goal with
    | |- context [if ?c then _ else _] => destruct c
    | |- context [match r with _ => _ end] => destruct r as [|v r]
    end; cbn [snd List.length] in *; try lia;
    match goal with |- (List.length (snd (process_clock_sync_args ?x ?y)) <= _)%nat => pose proof (IH x y ltac:(cbn [List.length]; lia)); cbn [List.length] in *; lia end. }
  intros s. apply (G (List.length l)). lia.
Qed.

Lemma strtol_small n t : writes n t -> n <= LLONG_MAX -> strtol t = n.
Proof. intros W B. pose proof (writes_nonneg _ _ W). unfold strtol. rewrite (number_writes n t W). unfold LLONG_MIN, LLONG_MAX in *. lia. Qed.
Lemma int32_small n : -2147483648 <= n <= 2147483647 -> int32 n = n.
Proof. intros B. unfold int32, two32. rewrite Z.mod_small; lia. Qed.
Lemma uint64_small n : 0 <= n < two64 -> uint64 n = n.
Proof. intros B. unfold uint64. apply Z.mod_small. assumption. Qed.

Definition clock_effect (c : clock_option) (s : settings) : settings :=
  match c with Status x => set_clock x s | Period n => set_period n s | Exchanges n => set_exchanges n s end.
Definition clock_effects (cs : list clock_option) (s : settings) : settings := fold_left (fun s c => clock_effect c s) cs s.

Lemma stat_eqb_eq a b : stat_eqb a b = true <-> a = b.
Proof. destruct a, b; cbn; split; congruence. Qed.

Lemma clock_args_line cs w rest : clock_line cs w -> forall s, clock_valid (clock s) cs ->
  process_clock_sync_args (w ++ rest) s = process_clock_sync_args rest (clock_effects cs s).
Proof.
  induction 1 as [|c cs w ws C L IH]; intros s V; [reflexivity|]. rewrite <- app_assoc.
  change (clock_effects (c :: cs) s) with (clock_effects cs (clock_effect c s)).
  destruct C as [|o O| |n t W|n t W]; cbn [clock_valid clock_effect] in *.
  - cbn [app process_clock_sync_args]. change (opt (lit "off") ["off"%string]) with true. cbv iota.
    apply IH. assumption.
  - cbn [app process_clock_sync_args].
    assert (opt (lit o) ["off"%string] = false) as -> by (destruct O as [<-|[<-|[]]]; reflexivity).
    assert (opt (lit o) ["init"; "initial"]%string = true) as -> by (apply opt_In, in_map; assumption).
    apply IH. assumption.
  - cbn [app process_clock_sync_args]. change (opt (lit "on") ["off"%string]) with false.
    change (opt (lit "on") ["init"; "initial"]%string) with false. change (opt (lit "on") ["on"%string]) with true. cbv iota.
    apply IH. assumption.
  - destruct V as (V1 & V2 & V3). cbn [app process_clock_sync_args].
    change (opt (lit "period") ["off"%string]) with false. change (opt (lit "period") ["init"; "initial"]%string) with false.
    change (opt (lit "period") ["on"%string]) with false. change (opt (lit "period") ["period"%string]) with true. cbv iota.
    rewrite V1. cbn [stat_eqb negb]. cbv zeta. rewrite (strtol_small n t W) by lia.
    replace ((n =? 0) || (n =? LLONG_MAX) || (n =? LLONG_MIN)) with false by (unfold LLONG_MIN, LLONG_MAX in *; lia).
    rewrite uint64_small by (unfold LLONG_MAX, two64 in *; lia). apply IH. assumption.
  - destruct V as (V1 & V2 & V3). cbn [app process_clock_sync_args].
    change (opt (lit "exchanges-per-interval") ["off"%string]) with false.
    change (opt (lit "exchanges-per-interval") ["init"; "initial"]%string) with false.
    change (opt (lit "exchanges-per-interval") ["on"%string]) with false.
    change (opt (lit "exchanges-per-interval") ["period"%string]) with false.
    change (opt (lit "exchanges-per-interval") ["exchanges-per-interval"%string]) with true. cbv iota.
    assert (negb (stat_eqb (clock s) clock_sync_on) && negb (stat_eqb (clock s) clock_sync_init) = false) as ->
      by (destruct (clock s); congruence || reflexivity).
    cbv zeta. rewrite (strtol_small n t W) by (unfold LLONG_MAX; lia).
    replace ((n =? 0) || (n =? LLONG_MAX) || (n =? LLONG_MIN)) with false by (unfold LLONG_MIN, LLONG_MAX in *; lia).
    rewrite int32_small by lia. apply IH. assumption.
Qed.
Lemma clock_args_stop a r s : ~ In a clock_words -> process_clock_sync_args (a :: r) s = (s, a :: r).
Proof.
  intros N. cbn [process_clock_sync_args]. unfold clock_words in N. cbn [map In] in N.
  rewrite !opt_false; [reflexivity|cbn [map In]; tauto..].
Qed.

(** ** The loop. *)
Lemma process_fuel fuel : forall fuel' b l s, (List.length l <= fuel)%nat -> (List.length l <= fuel')%nat ->
  process_from fuel b l s = process_from fuel' b l s.
Proof.
  induction fuel as [|fuel IH]; intros [|fuel'] b [|a r] s L L'; cbn [List.length] in *; try lia; try reflexivity.
  cbn [process_from].
  destruct (opt a ["-i"; "--id"]%string); [destruct r; [reflexivity|apply IH; cbn [List.length] in *; lia]|].
  destruct (opt a ["-n"; "--number_of_federates"]%string); [destruct r as [|v r]; [reflexivity|]; cbv zeta;
    destruct ((strtol v <=? 0) || (strtol v =? LLONG_MAX) || (strtol v =? LLONG_MIN)); [reflexivity|apply IH; cbn [List.length] in *; lia]|].
  destruct (opt a ["-p"; "--port"]%string); [destruct r as [|v r]; [reflexivity|]; cbv zeta;
    destruct ((uint32 (strtoul v) <=? 0) || (UINT16_MAX <=? uint32 (strtoul v))); [reflexivity|apply IH; cbn [List.length] in *; lia]|].
  destruct (opt a ["-c"; "--clock_sync"]%string).
  { destruct r as [|v r]; [reflexivity|]. pose proof (clock_args_length (v :: r) s) as Q.
    destruct (process_clock_sync_args (v :: r) s) as [s' r']. cbn [snd] in Q. apply IH; destruct r'; cbn [tl List.length] in *; lia. }
  destruct (opt a ["-a"; "--auth"]%string); [destruct b; [apply IH; lia|reflexivity]|].
  destruct (opt a ["-t"; "--tracing"]%string); [apply IH; lia|].
  destruct (opt a [" "%string]); [apply IH; lia|reflexivity].
Qed.
Definition process (b : bool) (l : list text) (s : settings) := process_from (List.length l) b l s.
Lemma process_args_process b prog l s : process_args b (prog :: l) s = process b l s.
Proof. unfold process_args, process. cbn [tl]. apply process_fuel; cbn [List.length]; lia. Qed.

Definition effect (o : option_) (s : settings) : settings :=
  match o with
  | Id v => set_id v s
  | Federates n => set_federates n s
  | Port n => set_port n s
  | ClockSync cs => clock_effects cs s
  | Auth => set_auth true s
  | Tracing => set_tracing true s
  | Blank => s
  end.
Definition effects (os : list option_) (s : settings) : settings := fold_left (fun s o => effect o s) os s.

Ltac name_ok := match goal with |- opt (lit ?o) _ = _ =>
  repeat match goal with X : In o _ |- _ => destruct X as [<-|X] | X : In o [] |- _ => destruct X end; reflexivity end.
Lemma strtoul_small n t : writes n t -> n < two64 -> strtoul t = n.
Proof.
  intros W B. pose proof (writes_nonneg _ _ W). unfold strtoul. rewrite (number_writes n t W).
  replace (Z.abs n <? two64) with true by lia. apply Z.mod_small. lia.
Qed.

Lemma process_one b o w rest s : says o w -> valid b o -> is_clock o = false ->
  process b (w ++ rest) s = process b rest (effect o s).
Proof.
  intros Y V C. destruct Y as [o v O|o n t O W|o n t O W|o cs w O| o O|o O|]; cbn [is_clock] in C; try discriminate; unfold process; cbn [app List.length effect valid] in *;
    match goal with |- process_from (S ?f) ?bb ?l ?ss = ?rhs => enough (G : forall g, (List.length rest <= g)%nat -> process_from (S g) bb l ss = rhs) by (apply G; cbn [List.length]; lia); intros g Fu end;
    cbn [process_from].
  - assert (opt (lit o) ["-i"; "--id"]%string = true) as -> by (apply opt_In, in_map; assumption).
    apply process_fuel; lia.
  - assert (opt (lit o) ["-i"; "--id"]%string = false) as -> by name_ok.
    assert (opt (lit o) ["-n"; "--number_of_federates"]%string = true) as -> by (apply opt_In, in_map; assumption).
    cbv zeta. rewrite (strtol_small n t W) by (unfold LLONG_MAX; lia).
    replace ((n <=? 0) || (n =? LLONG_MAX) || (n =? LLONG_MIN)) with false by (unfold LLONG_MAX, LLONG_MIN; lia).
    rewrite int32_small by lia. apply process_fuel; lia.
  - assert (opt (lit o) ["-i"; "--id"]%string = false) as -> by name_ok.
    assert (opt (lit o) ["-n"; "--number_of_federates"]%string = false) as -> by name_ok.
    assert (opt (lit o) ["-p"; "--port"]%string = true) as -> by (apply opt_In, in_map; assumption).
    cbv zeta. rewrite (strtoul_small n t W) by (unfold two64; lia). unfold uint32, uint16, UINT16_MAX, two32.
    rewrite (Z.mod_small n 4294967296) by lia. rewrite (Z.mod_small n 65536) by lia.
    replace ((n <=? 0) || (65535 <=? n)) with false by lia. apply process_fuel; lia.
  - assert (opt (lit o) ["-i"; "--id"]%string = false) as -> by name_ok.
    assert (opt (lit o) ["-n"; "--number_of_federates"]%string = false) as -> by name_ok.
    assert (opt (lit o) ["-p"; "--port"]%string = false) as -> by name_ok.
    assert (opt (lit o) ["-c"; "--clock_sync"]%string = false) as -> by name_ok.
    assert (opt (lit o) ["-a"; "--auth"]%string = true) as -> by (apply opt_In, in_map; assumption).
    rewrite V. apply process_fuel; lia.
  - assert (opt (lit o) ["-i"; "--id"]%string = false) as -> by name_ok.
    assert (opt (lit o) ["-n"; "--number_of_federates"]%string = false) as -> by name_ok.
    assert (opt (lit o) ["-p"; "--port"]%string = false) as -> by name_ok.
    assert (opt (lit o) ["-c"; "--clock_sync"]%string = false) as -> by name_ok.
    assert (opt (lit o) ["-a"; "--auth"]%string = false) as -> by name_ok.
    assert (opt (lit o) ["-t"; "--tracing"]%string = true) as -> by (apply opt_In, in_map; assumption).
    apply process_fuel; lia.
  - change (opt (lit " ") ["-i"; "--id"]%string) with false.
    change (opt (lit " ") ["-n"; "--number_of_federates"]%string) with false.
    change (opt (lit " ") ["-p"; "--port"]%string) with false.
    change (opt (lit " ") ["-c"; "--clock_sync"]%string) with false.
    change (opt (lit " ") ["-a"; "--auth"]%string) with false.
    change (opt (lit " ") ["-t"; "--tracing"]%string) with false.
    change (opt (lit " ") [" "%string]) with true. cbv iota. apply process_fuel; lia.
Qed.
Lemma process_line b os w rest : line os w -> forall s, Forall (valid b) os -> no_clock os ->
  process b (w ++ rest) s = process b rest (effects os s).
Proof.
  induction 1 as [|o os w ws Y L IH]; intros s V C; [reflexivity|].
  inversion V; inversion C; subst. rewrite <- app_assoc, (process_one b o) by assumption.
  rewrite IH by assumption. reflexivity.
Qed.
Lemma process_clock b o r s : In o ["-c"; "--clock_sync"]%string -> r <> [] ->
  process b (lit o :: r) s = process b (tl (snd (process_clock_sync_args r s))) (fst (process_clock_sync_args r s)).
Proof.
  intros O N. destruct r as [|v r]; [congruence|]. unfold process.
  match goal with |- process_from _ ?bb ?l ?ss = ?rhs => enough (G : forall g, (List.length (v :: r) <= g)%nat -> process_from (S g) bb l ss = rhs) by (apply (G (List.length (v :: r))); lia); intros g Fu end.
  cbn [process_from].
  assert (opt (lit o) ["-i"; "--id"]%string = false) as -> by name_ok.
  assert (opt (lit o) ["-n"; "--number_of_federates"]%string = false) as -> by name_ok.
  assert (opt (lit o) ["-p"; "--port"]%string = false) as -> by name_ok.
  assert (opt (lit o) ["-c"; "--clock_sync"]%string = true) as -> by (apply opt_In, in_map; assumption).
  pose proof (clock_args_length (v :: r) s) as Q.
  destruct (process_clock_sync_args (v :: r) s) as [s' r']. cbn [fst snd] in *.
  apply process_fuel; destruct r'; cbn [tl List.length] in *; lia.
Qed.

(** ** The meaning of the effects. *)
Lemma clock_effects_fields cs : forall s,
  federation_id (clock_effects cs s) = federation_id s /\ federates (clock_effects cs s) = federates s /\
  port (clock_effects cs s) = port s /\ auth (clock_effects cs s) = auth s /\ tracing (clock_effects cs s) = tracing s /\
  clock (clock_effects cs s) = last_of get_status cs (clock s) /\
  period (clock_effects cs s) = last_of get_period cs (period s) /\
  exchanges (clock_effects cs s) = last_of get_exchanges cs (exchanges s).
Proof.
  induction cs as [|c cs IH]; intros s; [repeat split|].
  change (clock_effects (c :: cs) s) with (clock_effects cs (clock_effect c s)).
  destruct (IH (clock_effect c s)) as (H1 & H2 & H3 & H4 & H5 & H6 & H7 & H8).
  rewrite H1, H2, H3, H4, H5, H6, H7, H8. destruct c; repeat split.
Qed.
Lemma last_of_app {A B} (f : A -> option B) l1 l2 d : last_of f (l1 ++ l2) d = last_of f l2 (last_of f l1 d).
Proof. unfold last_of. apply fold_left_app. Qed.
Lemma last_of_none {A B} (f : A -> option B) l : Forall (fun o => f o = None) l -> forall d, last_of f l d = d.
Proof. induction 1 as [|o os E _ IH]; intros d; [reflexivity|]. unfold last_of in *. cbn [fold_left]. rewrite E. apply IH. Qed.
Lemma effects_fields os : forall s,
  federation_id (effects os s) = last_of get_id os (federation_id s) /\
  federates (effects os s) = last_of get_federates os (federates s) /\
  port (effects os s) = last_of get_port os (port s) /\
  clock (effects os s) = last_of get_status (clock_part os) (clock s) /\
  period (effects os s) = last_of get_period (clock_part os) (period s) /\
  exchanges (effects os s) = last_of get_exchanges (clock_part os) (exchanges s) /\
  auth (effects os s) = last_of get_auth os (auth s) /\
  tracing (effects os s) = last_of get_tracing os (tracing s).
Proof.
  induction os as [|o os IH]; intros s; [repeat split|].
  change (effects (o :: os) s) with (effects os (effect o s)).
  destruct (IH (effect o s)) as (H1 & H2 & H3 & H4 & H5 & H6 & H7 & H8).
  change (clock_part (o :: os)) with ((match o with ClockSync cs => cs | _ => [] end) ++ clock_part os).
  rewrite H1, H2, H3, H4, H5, H6, H7, H8, !last_of_app.
  destruct o as [v|n|n|cs| | |]; cbn [effect]; try (repeat split; fail).
  destruct (clock_effects_fields cs s) as (E1 & E2 & E3 & E4 & E5 & E6 & E7 & E8).
  rewrite E1, E2, E3, E4, E5, E6, E7, E8. repeat split.
Qed.
Lemma effects_means os : means os (effects os settings0).
Proof. destruct (effects_fields os settings0) as (H1 & H2 & H3 & H4 & H5 & H6 & H7 & H8). constructor; assumption. Qed.

Lemma no_clock_clock os : no_clock os -> forall s, clock (effects os s) = clock s.
Proof.
  induction 1 as [|o os C _ IH]; intros s; [reflexivity|].
  change (effects (o :: os) s) with (effects os (effect o s)). rewrite IH. destruct o; cbn [is_clock] in C; try discriminate; reflexivity.
Qed.

Lemma line_app pre post w : line (pre ++ post) w -> exists w1 w2, w = w1 ++ w2 /\ line pre w1 /\ line post w2.
Proof.
  revert w. induction pre as [|o pre IH]; intros w L; [exists [], w; repeat split; [constructor|assumption]|].
  inversion L as [|? ? w0 ws Y L']; subst. destruct (IH ws L') as (w1 & w2 & -> & A & B).
  exists (w0 ++ w1), w2. rewrite app_assoc. repeat split; [constructor; assumption|assumption].
Qed.
Lemma clock_line_nonempty cs w : clock_line cs w -> cs <> [] -> w <> [].
Proof. destruct 1 as [|c cs w ws C L]; [congruence|]. intros _. destruct C; discriminate. Qed.

Lemma options_proof b prog os w : line os w -> Forall (valid b) os -> clock_last os ->
  process_args b (prog :: w) settings0 = (true, effects os settings0).
Proof.
  intros L V C. rewrite process_args_process. destruct C as [C|(pre & cs & -> & C)].
  - rewrite <- (app_nil_r w), (process_line b os) by assumption. reflexivity.
  - destruct (line_app _ _ _ L) as (w1 & w2 & -> & L1 & L2). apply Forall_app in V. destruct V as [V1 V2].
    rewrite (process_line b pre) by assumption.
    inversion L2 as [|? ? w0 ws Y L2']; subst. inversion L2'; subst. rewrite app_nil_r.
    inversion Y as [| | |o cs0 w3 O N CL| | |]; subst.
    rewrite process_clock by (try assumption; eapply clock_line_nonempty; eassumption).
    rewrite <- (app_nil_r w3), (clock_args_line cs).
    + cbn [process_clock_sync_args fst snd tl]. unfold process. cbn [List.length process_from].
      unfold effects. rewrite fold_left_app. reflexivity.
    + assumption.
    + rewrite no_clock_clock by assumption. inversion V2; assumption.
Qed.

Lemma ignored_proof b prog pre w o cs wc x y post : line pre w -> Forall (valid b) pre -> no_clock pre ->
  In o ["-c"; "--clock_sync"]%string -> clock_line cs wc -> clock_valid clock_sync_init cs ->
  ~ In x clock_words -> ~ In y clock_words ->
  process_args b (prog :: w ++ lit o :: wc ++ x :: post) settings0 = process_args b (prog :: w ++ lit o :: wc ++ y :: post) settings0.
Proof.
  intros L V C O CL CV X Y. rewrite !process_args_process, !(process_line b pre) by assumption.
  assert (K : clock (effects pre settings0) = clock_sync_init) by (rewrite no_clock_clock by assumption; reflexivity).
  rewrite !process_clock by (try assumption; destruct wc; discriminate).
  rewrite !(clock_args_line cs) by (rewrite ?K; assumption). rewrite !clock_args_stop by assumption. reflexivity.
Qed.

(** ** Wrong command lines. *)
Lemma number_minus n t : writes n t -> number (45 :: t) = - n.
Proof.
  intros (ds & Hne & F & -> & ->). unfold number. cbn [skip_space]. change (is_space 45) with false. cbv iota.
  rewrite digits_writes by assumption. lia.
Qed.
Lemma wrong_proof b r s : wrong b r -> process b r s = (false, s).
Proof.
  intros Wr. unfold process. destruct Wr as [a r N|o O|o n t r O W B|o n t r O W|o n t r O W B|o r O A]; cbn [List.length process_from].
  - unfold option_names in N. cbn [map In] in N. rewrite !opt_false; [reflexivity|cbn [map In]; tauto..].
  - repeat (destruct O as [<-|O]; [reflexivity|]). destruct O.
  - assert (opt (lit o) ["-i"; "--id"]%string = false) as -> by name_ok.
    assert (opt (lit o) ["-n"; "--number_of_federates"]%string = true) as -> by (apply opt_In, in_map; assumption).
    cbv zeta. unfold strtol. rewrite (number_writes n t W). pose proof (writes_nonneg _ _ W) as P.
    replace (_ || _ || _) with true; [reflexivity|]. unfold LLONG_MIN, LLONG_MAX in *. lia.
  - assert (opt (lit o) ["-i"; "--id"]%string = false) as -> by name_ok.
    assert (opt (lit o) ["-n"; "--number_of_federates"]%string = true) as -> by (apply opt_In, in_map; assumption).
    cbv zeta. unfold strtol. rewrite (number_minus n t W). pose proof (writes_nonneg _ _ W) as P.
    replace (_ || _ || _) with true; [reflexivity|]. unfold LLONG_MIN, LLONG_MAX in *. lia.
  - assert (opt (lit o) ["-i"; "--id"]%string = false) as -> by name_ok.
    assert (opt (lit o) ["-n"; "--number_of_federates"]%string = false) as -> by name_ok.
    assert (opt (lit o) ["-p"; "--port"]%string = true) as -> by (apply opt_In, in_map; assumption).
    cbv zeta. pose proof (writes_nonneg _ _ W) as P. destruct B as [->|[B|B]].
    + rewrite (strtoul_small 0 t W) by reflexivity. reflexivity.
    + rewrite (strtoul_small n t W) by (unfold two64, two32 in *; lia). unfold uint32, UINT16_MAX.
      rewrite Z.mod_small by lia. replace (_ || _) with true by lia. reflexivity.
    + unfold strtoul. rewrite (number_writes n t W). replace (Z.abs n <? two64) with false by lia. reflexivity.
  - assert (opt (lit o) ["-i"; "--id"]%string = false) as -> by name_ok.
    assert (opt (lit o) ["-n"; "--number_of_federates"]%string = false) as -> by name_ok.
    assert (opt (lit o) ["-p"; "--port"]%string = false) as -> by name_ok.
    assert (opt (lit o) ["-c"; "--clock_sync"]%string = false) as -> by name_ok.
    assert (opt (lit o) ["-a"; "--auth"]%string = true) as -> by (apply opt_In, in_map; assumption).
    rewrite A. reflexivity.
Qed.
Lemma rejected_proof b prog pre w r : line pre w -> Forall (valid b) pre -> no_clock pre -> wrong b r ->
  process_args b (prog :: w ++ r) settings0 = (false, effects pre settings0).
Proof.
  intros L V C W. rewrite process_args_process, (process_line b pre) by assumption. apply wrong_proof. assumption.
Qed.
