From Coq Require Import String.
From Verif Require Import Base CText Logging LoggingProofs Net TraceFile TraceCsv Chrome ChromeSpec.
Open Scope Z_scope.
Local Open Scope list_scope.

(** * The recognizer *)
Definition leads (m : mode) (st : list frame) (t : text) (m' : mode) (st' : list frame) : Prop := jrun m st t = Some (m', st').

Lemma jrun_app a : forall b m st, jrun m st (a ++ b) = match jrun m st a with Some (m', st') => jrun m' st' b | None => None end.
Proof. induction a as [|c a IH]; intros b m st; cbn [jrun app]; [reflexivity|]. destruct (jstep m st c) as [[m' st']|]; auto. Qed.
Lemma leads_app a b m st m1 st1 m2 st2 : leads m st a m1 st1 -> leads m1 st1 b m2 st2 -> leads m st (a ++ b) m2 st2.
Proof. unfold leads. intros A B. now rewrite jrun_app, A. Qed.
Lemma leads_nil m st : leads m st [] m st.
Proof. reflexivity. Qed.

Lemma leads_str t k st : plain t -> leads (Str k) st t (Str k) st.
Proof.
  unfold leads. induction 1 as [|c t (A & B & C) _ IH]; [reflexivity|]. cbn [jrun jstep].
  replace (c =? 34) with false by lia. replace (c =? 92) with false by lia. replace (c <? 32) with false by lia. exact IH.
Qed.

Lemma digit_step c st : 48 <= c <= 57 -> jstep Val st c = Some (if c =? 48 then Zero else Int, st).
Proof.
  intros H. cbn [jstep]. unfold blank, value, digit. replace (c =? 32) with false by lia. replace (c =? 9) with false by lia. replace (c =? 10) with false by lia. replace (c =? 13) with false by lia.
  cbn [orb]. replace (c =? 34) with false by lia. replace (c =? 123) with false by lia. replace (c =? 91) with false by lia. replace (c =? 45) with false by lia.
  destruct (c =? 48); [reflexivity|]. replace (48 <=? c) with true by lia. replace (c <=? 57) with true by lia. reflexivity.
Qed.
Lemma dec_leads n : forall v m st, 0 < v < 10 ^ Z.of_nat n -> (m = Val \/ m = Minus) -> leads m st (dec n v) Int st.
Proof.
  unfold leads. induction n as [|n IH]; intros v m st Hv Hm; [cbn in Hv; lia|]. cbn [dec].
  destruct (Z.ltb_spec v 10) as [L|L].
  - cbn [jrun]. assert (Q : jstep m st (48 + v) = Some (Int, st)).
    { destruct Hm as [-> | ->].
      - change (jstep Val st (48 + v) = Some (Int, st)). rewrite digit_step by lia. replace (48 + v =? 48) with false by lia. reflexivity.
      - cbn [jstep]. unfold digit. replace (48 + v =? 48) with false by lia. replace (48 <=? 48 + v) with true by lia. replace (48 + v <=? 57) with true by lia. reflexivity. }
    now rewrite Q.
  - rewrite jrun_app, (IH (v / 10) m st); [| |exact Hm].
    + pose proof (Z.mod_pos_bound v 10 ltac:(lia)). cbn [jrun jstep]. unfold digit.
      replace (48 <=? 48 + v mod 10) with true by lia. replace (48 + v mod 10 <=? 57) with true by lia. reflexivity.
    + rewrite Nat2Z.inj_succ, Z.pow_succ_r in Hv by lia. split; [apply Z.div_str_pos; lia|apply Z.div_lt_upper_bound; lia].
Qed.
Lemma sdec_leads z st : - 10 ^ 20 < z < 10 ^ 20 -> exists m, (m = Int \/ m = Zero) /\ leads Val st (sdec z) m st.
Proof.
  intros H. unfold sdec. destruct (Z.ltb_spec z 0) as [L|L].
  - exists Int. split; [now left|]. unfold leads. cbn [jrun]. change (jstep Val st 45) with (Some (Minus, st)).
    apply dec_leads; [change (Z.of_nat 20) with 20; lia|now right].
  - destruct (Z.eq_dec z 0) as [->|N]; [exists Zero; split; [now right|reflexivity]|]. exists Int. split; [now left|].
    apply dec_leads; [change (Z.of_nat 20) with 20; lia|now left].
Qed.

(** Behind a number there is a comma or the end of an object. *)
Definition stops (t : text) : Prop := match t with c :: _ => c = 44 \/ c = 125 | [] => False end.
Lemma number_stops m st t m' st' : m = Int \/ m = Zero -> stops t -> leads After st t m' st' -> leads m st t m' st'.
Proof.
  unfold leads. destruct t as [|c t]; [intros _ []|]. intros Hm [-> | ->]; destruct Hm as [-> | ->]; auto.
Qed.
Lemma leads_num z t st m' st' : - 10 ^ 20 < z < 10 ^ 20 -> stops t -> leads After st t m' st' -> leads Val st (sdec z ++ t) m' st'.
Proof.
  intros H S1 A. destruct (sdec_leads z st H) as (m & Hm & L). eapply leads_app; [exact L|]. now apply number_stops.
Qed.
Lemma fits32_small z : fits32 z = true -> - 10 ^ 20 < z < 10 ^ 20.
Proof. unfold fits32. change (2 ^ 31) with 2147483648. change (10 ^ 20) with 100000000000000000000. lia. Qed.
Lemma fits64_small z : fits64 z = true -> - 10 ^ 20 < z < 10 ^ 20.
Proof. unfold fits64. change (2 ^ 63) with 9223372036854775808. change (10 ^ 20) with 100000000000000000000. lia. Qed.
Definition small (z : Z) : Prop := - 10 ^ 20 < z < 10 ^ 20.

(** A text that is a value. *)
Definition is_value (t : text) : Prop := forall st, leads Val st t After st.

Lemma plain_lit_ok t : forallb (fun c => (32 <=? c) && negb (c =? 34) && negb (c =? 92)) t = true -> plain t.
Proof. intros H. unfold plain. apply Forall_forall. intros c C. rewrite forallb_forall in H. specialize (H c C). unfold plain_char. lia. Qed.
Lemma plain_app a b : plain a -> plain b -> plain (a ++ b).
Proof. intros A B. apply Forall_app. auto. Qed.
Lemma plain_dec n v : 0 <= v -> plain (dec n v).
Proof. intros H. eapply Forall_impl; [|apply (dec_digits n v H)]. intros c C. cbv beta in C. unfold plain_char. lia. Qed.
Lemma plain_sdec z : plain (sdec z).
Proof. unfold sdec. destruct (Z.ltb_spec z 0); [constructor; [unfold plain_char; lia|]|]; apply plain_dec; lia. Qed.
Lemma plain_firstn n t : plain t -> plain (firstn n t).
Proof. unfold plain. rewrite !Forall_forall. intros H x X. apply H. rewrite <- (firstn_skipn n t). apply in_or_app. now left. Qed.
Lemma plain_event_name k : plain (event_name k).
Proof.
  unfold event_name. apply plain_lit_ok. destruct k as [|p|p]; try reflexivity.
  do 4 (try (destruct p as [p|p|]; try reflexivity)).
Qed.

(** ** Arguments *)
Ltac literal := eapply leads_app; [reflexivity|].
Lemma value_args_value v : small v -> is_value (value_args v).
Proof.
  intros H st. unfold value_args. literal. apply leads_num; [exact H|right; reflexivity|]. reflexivity.
Qed.
Lemma instant_args_value a b : small a -> small b -> is_value (instant_args a b).
Proof.
  intros Ha Hb st. unfold instant_args. literal. apply leads_num; [exact Ha|left; reflexivity|]. literal.
  apply leads_num; [exact Hb|right; reflexivity|]. reflexivity.
Qed.
(** What stands for the reaction: a number of at most three digits, or a string. *)
Definition reaction_text (t : text) : Prop := forall st, (exists m, (m = Int \/ m = Zero \/ m = After) /\ leads Val st t m st).
Lemma args_value r l p u : reaction_text r -> small l -> small p -> small u -> is_value (args r l p u).
Proof.
  intros Hr Hl Hp Hu st. unfold args. literal. destruct (Hr (Obj :: st)) as (m & Hm & L). eapply leads_app; [exact L|].
  assert (A : forall t m' st', stops t -> leads After (Obj :: st) t m' st' -> leads m (Obj :: st) t m' st').
  { intros t m' st' S1 Q. destruct Hm as [Hm|[Hm|Hm]]; [apply number_stops; auto|apply number_stops; auto|now subst]. }
  apply A; [left; reflexivity|]. literal. apply leads_num; [exact Hl|left; reflexivity|]. literal.
  apply leads_num; [exact Hp|left; reflexivity|]. literal. apply leads_num; [exact Hu|right; reflexivity|]. reflexivity.
Qed.

Lemma leads_prefix a b st : (exists m, (m = Int \/ m = Zero) /\ leads Val st (a ++ b) m st) -> a <> [] -> Forall (fun c => 48 <= c <= 57) (a ++ b) ->
  exists m, (m = Int \/ m = Zero) /\ leads Val st a m st.
Proof.
  intros (m & Hm & L) N D. unfold leads in *. rewrite jrun_app in L. destruct a as [|c a]; [contradiction|]. clear N. cbn [app] in D. inversion D as [|? ? D1 D2]; subst. apply Forall_app in D2. destruct D2 as [D2 _].
  cbn [jrun] in *. assert (Q : jstep Val st c = Some (if c =? 48 then Zero else Int, st)).
  { now apply digit_step. }
  rewrite Q in *. destruct (c =? 48).
  - destruct a as [|d a]; [exists Zero; auto|]. exfalso. cbn [jrun] in L. inversion D2 as [|? ? D3 D4]; subst.
    assert (Z1 : jstep Zero st d = None); [|now rewrite Z1 in L].
    cbn [jstep]. unfold fraction, after, blank. replace (d =? 46) with false by lia. replace (d =? 101) with false by lia. replace (d =? 69) with false by lia.
    replace (d =? 32) with false by lia. replace (d =? 9) with false by lia. replace (d =? 10) with false by lia. replace (d =? 13) with false by lia. cbn [orb].
    replace (d =? 44) with false by lia. replace (d =? 93) with false by lia. replace (d =? 125) with false by lia. destruct st as [|[] ?]; reflexivity.
  - exists Int. split; [now left|]. clear - D2. induction D2 as [|d a D3 _ IH]; [reflexivity|]. cbn [jrun jstep]. unfold digit.
    replace (48 <=? d) with true by lia. replace (d <=? 57) with true by lia. exact IH.
Qed.
Lemma reaction_ok d : fits32 d = true -> reaction_text (if 0 <=? d then snprintf 4 (sdec d) else lit """UNKNOWN""").
Proof.
  intros F st. destruct (Z.leb_spec 0 d) as [L|L]; [|exists After; split; [auto|reflexivity]].
  assert (X : exists m, (m = Int \/ m = Zero) /\ leads Val st (snprintf 4 (sdec d)) m st); [|destruct X as (m & [-> | ->] & X); eauto].
  unfold snprintf. apply (leads_prefix _ (skipn (4 - 1) (sdec d))).
  - rewrite firstn_skipn. now apply sdec_leads, fits32_small.
  - unfold sdec. replace (d <? 0) with false by lia. assert (dec 20 d <> []); [|destruct (dec 20 d); cbn; congruence].
    cbn [dec]. destruct (d <? 10); [discriminate|]. intros Q. symmetry in Q. revert Q. apply app_cons_not_nil.
  - rewrite firstn_skipn. unfold sdec. replace (d <? 0) with false by lia. apply dec_digits. exact L.
Qed.

(** ** Events *)
Definition event_ok (j : event) : Prop :=
  plain (j_name j) /\ plain (j_cat j) /\ plain (j_ph j) /\ small (j_tid j) /\ small (j_pid j) /\ small (j_ts j) /\ is_value (j_args j).
Definition element (m : mode) : Prop := m = Val \/ m = ValOrEnd.
Lemma render_leads j m st : event_ok j -> element m -> leads m (Arr :: st) (render j) Val (Arr :: st).
Proof.
  intros (A & B & C & D & F & G & K) M. unfold render.
  eapply leads_app; [destruct M as [-> | ->]; reflexivity|]. eapply leads_app; [apply leads_str; exact A|]. literal.
  eapply leads_app; [apply leads_str; exact B|]. literal. eapply leads_app; [apply leads_str; exact C|]. literal.
  apply leads_num; [exact D|left; reflexivity|]. literal. apply leads_num; [exact F|left; reflexivity|]. literal.
  apply leads_num; [exact G|left; reflexivity|]. literal. eapply leads_app; [apply K|]. reflexivity.
Qed.
Definition meta_ok (m : meta) : Prop := small (m_pid m) /\ match m_tid m with Some t => small t | None => True end /\ plain (m_name m).
Lemma render_meta_leads x m st : meta_ok x -> element m -> leads m (Arr :: st) (render_meta x) After (Arr :: st).
Proof.
  intros (A & B & C) M. unfold render_meta. destruct (m_tid x) as [t|].
  - eapply leads_app; [destruct M as [-> | ->]; reflexivity|]. apply leads_num; [exact A|left; reflexivity|]. literal.
    apply leads_num; [exact B|left; reflexivity|]. literal. eapply leads_app; [apply leads_str; exact C|]. reflexivity.
  - eapply leads_app; [destruct M as [-> | ->]; reflexivity|]. apply leads_num; [exact A|left; reflexivity|]. literal.
    eapply leads_app; [apply leads_str; exact C|]. reflexivity.
Qed.
Lemma elements {A} (f : A -> text) (P : A -> Prop) st l : (forall a m, P a -> element m -> leads m (Arr :: st) (f a) Val (Arr :: st)) ->
  Forall P l -> forall m, element m -> exists m', element m' /\ leads m (Arr :: st) (flat_map f l) m' (Arr :: st).
Proof.
  intros H. induction 1 as [|a l Pa Pl IH]; intros m M; cbn [flat_map]; [exists m; split; [exact M|reflexivity]|].
  destruct (IH Val (or_introl eq_refl)) as (m' & M' & L). exists m'. split; [exact M'|]. eapply leads_app; [apply H; [exact Pa|exact M]|exact L].
Qed.

(** ** Everything that is written is in order *)
Lemma lookup_in p : forall table i o k, lookup p i table = Some (o, k) -> In o table /\ i <= k < i + Z.of_nat (List.length table).
Proof.
  induction table as [|x table IH]; intros i o k H; cbn [lookup] in H; [discriminate|]. cbn [List.length]. destruct (p x).
  - injection H as <- <-. split; [now left|lia].
  - destruct (IH _ _ _ H) as [A B]. split; [now right|lia].
Qed.
Lemma object_ok table ptr d : names_plain table -> plain d ->
  plain (text_of (fst (get_object_description table ptr)) d) /\ 0 <= snd (get_object_description table ptr) <= Z.of_nat (List.length table).
Proof.
  intros N D. unfold get_object_description. destruct (lookup _ 0 table) as [[o k]|] eqn:Q; cbn; [|split; [exact D|lia]].
  apply lookup_in in Q. destruct Q as [A B]. unfold names_plain in N. rewrite Forall_forall in N. split; [now apply N|lia].
Qed.
Lemma trigger_ok table ptr d : names_plain table -> plain d ->
  plain (text_of (fst (get_trigger_name table ptr)) d) /\ 0 <= snd (get_trigger_name table ptr) <= Z.of_nat (List.length table).
Proof.
  intros N D. unfold get_trigger_name. destruct (lookup _ 0 table) as [[o k]|] eqn:Q; cbn; [|split; [exact D|lia]].
  apply lookup_in in Q. destruct Q as [A B]. unfold names_plain in N. rewrite Forall_forall in N. split; [now apply N|lia].
Qed.
Lemma signed_small z : 0 <= z < 2 ^ 32 -> small (to_signed 32 z).
Proof.
  unfold to_signed, small. change (10 ^ 20) with 100000000000000000000. change (2 ^ 32) with 4294967296. change (2 ^ (32 - 1)) with 2147483648.
  intros H. destruct (_ <? _); lia.
Qed.
Lemma quot_small z : fits64 z = true -> - 9223372036854776 <= Z.quot z 1000 <= 9223372036854776.
Proof.
  unfold fits64. change (2 ^ 63) with 9223372036854775808. intros H.
  pose proof (Z.quot_rem' z 1000) as Q. pose proof (Z.rem_bound_abs z 1000 ltac:(lia)). lia.
Qed.
Lemma convert_ok table start only e js : names_plain table -> Z.of_nat (List.length table) < 2 ^ 31 -> typed e ->
  convert table start only e = TraceCsv.Ok js -> Forall event_ok js.
Proof.
  intros N T (T1 & T2 & T3 & T4 & T5 & T6 & T7) H. unfold convert in H. cbv zeta in H.
  destruct (federated <? event_type e); [injection H as <-; constructor|].
  set (d := if (event_type e =? worker_wait_starts) || (event_type e =? worker_wait_ends) then lit "WAIT"
            else if (event_type e =? scheduler_advancing_time_starts) || (event_type e =? scheduler_advancing_time_starts) then lit "ADVANCE TIME" else lit "NO REACTOR") in *.
  assert (Pd : plain d) by (unfold d; destruct (_ || _); [|destruct (_ || _)]; now apply plain_lit_ok).
  pose proof (object_ok table (pointer e) d N Pd) as O1. destruct (get_object_description table (pointer e)) as [l ri]. cbn [fst snd] in O1.
  pose proof (trigger_ok table (trigger e) (lit "NONE") N ltac:(now apply plain_lit_ok)) as O2. destruct (get_trigger_name table (trigger e)) as [tl ti]. cbn [fst snd] in O2.
  destruct O1 as [O1 R1]. destruct O2 as [O2 R2].
  destruct (fits64 (physical_time e - start)) eqn:F1; cbn [negb orb] in H; [|discriminate].
  destruct (fits64 (logical_time e - start)) eqn:F2; cbn [negb orb] in H; [|discriminate].
  pose proof (quot_small _ F1) as Q1. pose proof (quot_small _ F2) as Q2. pose proof (quot_small _ T6) as Q3.
  set (p := Z.quot (physical_time e - start) 1000) in *. set (g := Z.quot (logical_time e - start) 1000) in *. set (x := Z.quot (extra_delay e) 1000) in *.
  destruct (p <? 0); [injection H as <-; constructor|]. destruct (g <? 0); [injection H as <-; constructor|].
  destruct (event_type e <? 0); [discriminate|].
  pose proof (reaction_ok (dst_id e) T3) as Rr. set (r := if 0 <=? dst_id e then snprintf 4 (sdec (dst_id e)) else lit """UNKNOWN""") in *.
  pose proof (signed_small (microstep e) ltac:(first [exact T5|exact T4|exact T7|exact T6])) as Sm.
  change (2 ^ 31) with 2147483648 in T.
  assert (Sp : small p) by (unfold small; change (10 ^ 20) with 100000000000000000000; lia).
  assert (Sg : small g) by (unfold small; change (10 ^ 20) with 100000000000000000000; lia).
  assert (Sx : small (g + x)) by (unfold small; change (10 ^ 20) with 100000000000000000000; lia).
  assert (Av : is_value (args r g p (to_signed 32 (microstep e)))) by now apply args_value.
  apply fits32_small in T2, T3. apply fits64_small in T6.
  assert (St : small ti) by (unfold small; change (10 ^ 20) with 100000000000000000000; lia).
  assert (Sr : small ri) by (unfold small; change (10 ^ 20) with 100000000000000000000; lia).
  assert (Sr1 : small (ri + 1)) by (unfold small; change (10 ^ 20) with 100000000000000000000; lia).
  assert (S0 : small 0 /\ small PID_FOR_USER_EVENT /\ small PID_FOR_UNKNOWN_EVENT) by (unfold small, PID_FOR_USER_EVENT, PID_FOR_UNKNOWN_EVENT; change (10 ^ 20) with 100000000000000000000; lia).
  destruct S0 as (S0 & S01 & S02).
  assert (PL : plain (lit "B") /\ plain (lit "E") /\ plain (lit "i") /\ plain (lit "C") /\ plain (lit "Reaction")) by (repeat split; now apply plain_lit_ok).
  destruct PL as (P1 & P2 & P3 & P4 & P5).
  match type of H with context [mkEvent (snprintf 13 _)] => idtac end.
  match type of H with (if _ then if _ then TraceCsv.Ok [?j; _] else _ else _) = _ => set (j0 := j) in * end.
  assert (J : event_ok j0).
  { unfold j0. pose proof (plain_event_name (event_type e)).
    destruct (starts (event_type e)); [unfold event_ok; cbn; auto 9|]. destruct (ends (event_type e)); [unfold event_ok; cbn; auto 9|].
    destruct (event_type e =? schedule_called); [unfold event_ok; cbn; destruct only; auto 9|].
    destruct (event_type e =? user_event); [unfold event_ok; cbn; destruct only; auto 9|].
    destruct (event_type e =? user_value); [unfold event_ok; cbn; pose proof (value_args_value _ T6); destruct only; auto 9|].
    unfold event_ok; cbn; auto 9. }
  clearbody j0. destruct ((event_type e =? reaction_starts) && negb only); [|injection H as <-; auto].
  destruct (fits32 (1024 + dst_id e)) eqn:F3; [|discriminate]. injection H as <-. constructor; [exact J|]. constructor; [|constructor].
  apply fits32_small in F3. unfold event_ok. cbn [j_name j_cat j_ph j_tid j_pid j_ts j_args]. split; [|split; [exact P5|split; [exact P3|split; [exact F3|split; [exact Sr1|split; [exact Sg|]]]]]].
  - unfold snprintf. apply plain_firstn, (plain_app (lit "reaction ")); [now apply plain_lit_ok|apply plain_sdec].
  - now apply instant_args_value.
Qed.
Lemma convert_all_ok table start only l : names_plain table -> Z.of_nat (List.length table) < 2 ^ 31 -> Forall typed l ->
  forall js, convert_all table start only l = TraceCsv.Ok js -> Forall event_ok js.
Proof.
  intros N T. induction 1 as [|e l A B IH]; intros js H; cbn [convert_all] in H; [injection H as <-; constructor|].
  destruct (convert table start only e) as [a|] eqn:Q; [|discriminate]. destruct (convert_all table start only l) as [r|]; [|discriminate].
  injection H as <-. apply Forall_app. split; [eapply convert_ok; eassumption|now apply IH].
Qed.

Lemma upto_in a b z : In z (upto a b) <-> a <= z <= b.
Proof.
  unfold upto. rewrite in_map_iff. split.
  - intros (i & <- & H). apply in_seq in H. lia.
  - intros H. exists (Z.to_nat (z - a)). split; [lia|]. apply in_seq. lia.
Qed.
Lemma object_names_ok table rest : names_plain table -> names_plain rest -> Z.of_nat (List.length table) < 2 ^ 31 -> forall i,
  0 <= i -> i + Z.of_nat (List.length rest) < 2 ^ 32 -> Forall meta_ok (object_names table rest i).
Proof.
  intros N R T. change (2 ^ 31) with 2147483648 in T. change (2 ^ 32) with 4294967296. induction R as [|o rest A B IH]; intros i I1 I2; cbn [object_names]; [constructor|].
  cbn [List.length] in I2. apply Forall_app. split; [|apply IH; lia].
  pose proof (object_ok table (o_pointer o) [] N ltac:(constructor)) as [_ O].
  assert (Si : forall z, -5 <= z <= 4294967300 -> small z) by (intros z Hz; unfold small; change (10 ^ 20) with 100000000000000000000; lia).
  destruct (o_type o =? trace_trigger); [|destruct (o_type o =? trace_reactor); [|destruct (o_type o =? trace_user); [|constructor]]]; (constructor; [|constructor]); unfold meta_ok; cbn [m_pid m_tid m_name].
  - split; [apply Si; lia|]. split; [apply Si; lia|]. apply plain_app; [now apply plain_lit_ok|exact A].
  - split; [apply Si; lia|]. split; [exact Logic.I|]. apply plain_app; [now apply plain_lit_ok|]. apply plain_app; [exact A|now apply plain_lit_ok].
  - split; [apply Si; unfold PID_FOR_USER_EVENT; lia|]. split; [apply Si; lia|exact A].
Qed.
Lemma fold_max {A} (f : A -> Z) (c : A -> Z -> bool) l : forall m0 b, m0 <= b -> Forall (fun a => f a <= b) l ->
  fold_left (fun m a => if c a m then f a else m) l m0 <= b.
Proof. induction l as [|a l IH]; intros m0 b H F; cbn; [exact H|]. inversion F; subst. apply IH; [destruct (c a m0); auto|assumption]. Qed.
Lemma metadata_ok table top th re : names_plain table -> plain top -> Z.of_nat (List.length table) < 2 ^ 31 -> th < 2 ^ 31 -> re < 2 ^ 31 ->
  Forall meta_ok (metadata table top th re).
Proof.
  intros N P T H1 H2. change (2 ^ 31) with 2147483648 in *.
  assert (Si : forall z, -5 <= z <= 4294967300 -> small z) by (intros z Hz; unfold small; change (10 ^ 20) with 100000000000000000000; lia).
  unfold metadata. constructor; [|apply Forall_app; split; [|apply Forall_app; split; [|apply Forall_app; split]]].
  - unfold meta_ok. cbn [m_pid m_tid m_name]. split; [apply Si; lia|]. split; [apply Si; lia|now apply plain_lit_ok].
  - apply Forall_forall. intros x X. apply in_flat_map in X. destruct X as (i & I & X). apply upto_in in I.
    assert (Q : x = mkMeta 0 (Some i) (lit "Worker " ++ sdec i)) by (cbv zeta in X; destruct X as [X|[X|[X|[]]]]; symmetry; exact X). subst x. clear X.
    unfold meta_ok. cbn [m_pid m_tid m_name]. split; [apply Si; lia|]. split; [apply Si; lia|]. apply plain_app; [now apply plain_lit_ok|apply plain_sdec].
  - apply Forall_forall. intros x X. apply in_flat_map in X. destruct X as (i & I & X). apply upto_in in I. apply in_map_iff in X. destruct X as (n & <- & X). apply upto_in in X.
    unfold meta_ok. cbn [m_pid m_tid m_name]. split; [apply Si; lia|]. split; [apply Si; lia|]. apply plain_app; [now apply plain_lit_ok|apply plain_sdec].
  - apply object_names_ok; auto; change (2 ^ 31) with 2147483648; change (2 ^ 32) with 4294967296; lia.
  - constructor; [|constructor]. unfold meta_ok. cbn [m_pid m_tid m_name]. split; [apply Si; lia|]. split; [exact Logic.I|]. apply plain_app; [now apply plain_lit_ok|exact P].
Qed.

Theorem json table top start only l t : names_plain table -> plain top -> Z.of_nat (List.length table) < 2 ^ 31 -> Forall typed l ->
  write_json table top start only l = TraceCsv.Ok t -> is_json t = true.
Proof.
  intros N P T Ty H. unfold write_json in H. destruct (convert_all table start only l) as [js|] eqn:Q; [|discriminate].
  pose proof (convert_all_ok _ _ _ _ N T Ty js Q) as J.
  assert (M : Forall meta_ok (metadata table top (max_thread_id start l) (max_reaction_number start only l))).
  { apply metadata_ok; auto.
    - unfold max_thread_id. apply Z.lt_le_trans with (m := 2 ^ 31 - 1 + 1); [|lia]. apply Z.lt_succ_r.
      apply (fold_max src_id (fun e m => shown start e && (m <? src_id e))); [lia|]. eapply Forall_impl; [|exact Ty]. intros e (_ & E2 & _). unfold fits32 in E2. lia.
    - unfold max_reaction_number. apply Z.lt_le_trans with (m := 2 ^ 31 - 1 + 1); [|lia]. apply Z.lt_succ_r.
      apply (fold_max dst_id (fun e m => shown start e && (event_type e =? reaction_starts) && negb only && (m <? dst_id e))); [lia|]. eapply Forall_impl; [|exact Ty]. intros e (_ & _ & E3 & _). unfold fits32 in E3. lia. }
  match type of H with TraceCsv.Ok ?x = _ => assert (Q2 : t = x) by congruence end. subst t. clear H. revert M. generalize (metadata table top (max_thread_id start l) (max_reaction_number start only l)). intros ms M.
  assert (L : leads Val [] (lit "{ ""traceEvents"": [" ++ nl ++ flat_map render js ++ flat_map (fun m => render_meta m ++ lit "," ++ nl) ms ++ render_meta (last_meta top) ++ nl ++ lit "]}" ++ nl) After []).
  { literal. literal.
    destruct (elements render event_ok [Obj] js (fun a m A B => render_leads a m [Obj] A B) J ValOrEnd (or_intror eq_refl)) as (m1 & M1 & L1).
    eapply leads_app; [exact L1|].
    destruct (elements (fun m => render_meta m ++ lit "," ++ nl) meta_ok [Obj] ms) with (m := m1) as (m2 & M2 & L2); [|exact M|exact M1|].
    { intros a m A B. eapply leads_app; [apply render_meta_leads; [exact A|exact B]|]. reflexivity. }
    eapply leads_app; [exact L2|]. eapply leads_app; [apply render_meta_leads; [|exact M2]|reflexivity].
    unfold meta_ok, last_meta. cbn [m_pid m_tid m_name]. split; [unfold small, PID_FOR_USER_EVENT; change (10 ^ 20) with 100000000000000000000; lia|]. split; [exact Logic.I|].
    apply plain_app; [now apply plain_lit_ok|]. apply plain_app; [exact P|now apply plain_lit_ok]. }
  unfold is_json. unfold leads in L. rewrite L. reflexivity.
Qed.

(** * Sound traces *)
Lemma quot_div z : 0 <= z -> Z.quot z 1000 = z / 1000.
Proof. intros H. apply Z.quot_div_nonneg; lia. Qed.
Lemma sound_converts table start only e : sound start e -> exists js, convert table start only e = TraceCsv.Ok js /\
  forall w, flat_map (event_span w) js = entry_span start w e.
Proof.
  intros (T & K & A & B & C & D & G). destruct T as (T1 & T2 & T3 & T4 & T5 & T6 & T7).
  unfold convert. cbv zeta. unfold federated. destruct (Z.ltb_spec 10 (event_type e)) as [L|L].
  { exists []. split; [reflexivity|]. intros w. cbn. unfold entry_span. destruct (src_id e =? w); [|reflexivity].
    replace (event_type e =? 0) with false by lia. replace (event_type e =? 6) with false by lia. replace (event_type e =? 8) with false by lia.
    replace (event_type e =? 1) with false by lia. replace (event_type e =? 7) with false by lia. replace (event_type e =? 9) with false by lia. reflexivity. }
  destruct (get_object_description table (pointer e)) as [l ri] eqn:Q1. destruct (get_trigger_name table (trigger e)) as [tl ti] eqn:Q2.
  assert (Ri : 0 <= ri). { unfold get_object_description in Q1. destruct (lookup _ 0 table) as [[o k]|] eqn:Q; [apply lookup_in in Q|]; injection Q1 as _ <-; lia. }
  assert (F1 : fits64 (physical_time e - start) = true) by (unfold fits64; change (2 ^ 63) with 9223372036854775808 in *; lia).
  assert (F2 : fits64 (logical_time e - start) = true) by (unfold fits64; change (2 ^ 63) with 9223372036854775808 in *; lia).
  rewrite F1, F2. cbn [negb orb]. rewrite !quot_div by lia.
  assert (P0 : 0 <= (physical_time e - start) / 1000) by (apply Z.div_pos; lia). assert (L0 : 0 <= (logical_time e - start) / 1000) by (apply Z.div_pos; lia).
  destruct (Z.ltb_spec ((physical_time e - start) / 1000) 0); [lia|]. destruct (Z.ltb_spec ((logical_time e - start) / 1000) 0); [lia|].
  destruct (Z.ltb_spec (event_type e) 0); [lia|].
  assert (F3 : fits32 (1024 + dst_id e) = true) by (unfold fits32 in *; change (2 ^ 31) with 2147483648 in *; lia).
  rewrite F3. unfold starts, ends, reaction_starts, worker_wait_starts, scheduler_advancing_time_starts, reaction_ends, worker_wait_ends, scheduler_advancing_time_ends, schedule_called, user_event, user_value.
  assert (Cs : event_type e = 0 \/ event_type e = 1 \/ event_type e = 2 \/ event_type e = 3 \/ event_type e = 4 \/ event_type e = 5 \/ event_type e = 6 \/ event_type e = 7 \/ event_type e = 8 \/ event_type e = 9 \/ event_type e = 10) by lia.
  assert (R1 : ri + 1 =? 0 = false) by lia.
  destruct Cs as [E1|[E1|[E1|[E1|[E1|[E1|[E1|[E1|[E1|[E1|E1]]]]]]]]]]; rewrite E1; cbn -[Z.div args value_args instant_args sdec snprintf lit text_of Z.quot to_signed get_object_description event_name];
    try (destruct only; cbn -[Z.div args value_args instant_args sdec snprintf lit text_of Z.quot to_signed event_name]); (eexists; split; [reflexivity|]); intros w; unfold entry_span; rewrite E1; cbn [flat_map app]; unfold event_span; cbn [j_pid j_tid j_ph j_ts];
    rewrite ?R1; cbn [Z.eqb andb orb PID_FOR_USER_EVENT PID_FOR_UNKNOWN_EVENT]; try (destruct (src_id e =? w); reflexivity).
Qed.

Lemma spans table start only l : Forall (sound start) l -> exists js, convert_all table start only l = TraceCsv.Ok js /\
  forall w, flat_map (event_span w) js = flat_map (entry_span start w) l.
Proof.
  induction 1 as [|e l A B IH]; [exists []; split; [reflexivity|reflexivity]|]. cbn [convert_all].
  destruct (sound_converts table start only e A) as (a & -> & Ha). destruct IH as (r & -> & Hr). exists (a ++ r). split; [reflexivity|].
  intros w. cbn [flat_map]. now rewrite flat_map_app, Ha, Hr.
Qed.

(** * Names *)
Lemma fold_max_ge {A} (f : A -> Z) (c : A -> bool) l : forall m0, m0 <= fold_left (fun m a => if c a && (m <? f a) then f a else m) l m0 /\
  forall a, In a l -> c a = true -> f a <= fold_left (fun m a => if c a && (m <? f a) then f a else m) l m0.
Proof.
  induction l as [|x l IH]; intros m0; cbn [fold_left]; [split; [lia|intros a []]|].
  destruct (IH (if c x && (m0 <? f x) then f x else m0)) as [A1 A2].
  assert (M : m0 <= (if c x && (m0 <? f x) then f x else m0)) by (destruct (c x); cbn; [destruct (Z.ltb_spec m0 (f x)); lia|lia]).
  split; [lia|]. intros a [<-|X] C; [|now apply A2]. rewrite C in *. cbn [andb] in *. destruct (Z.ltb_spec m0 (f x)); lia.
Qed.
Lemma thread_named table top start re l w : 0 <= w -> (exists e, In e l /\ shown start e = true /\ src_id e = w) ->
  named (metadata table top (max_thread_id start l) re) 0 (Some w).
Proof.
  intros W (e & I & S1 & <-). unfold named, metadata.
  destruct (Z.eq_dec (src_id e) 0) as [->|N]; [eexists; split; [left; reflexivity|auto]|].
  exists (mkMeta 0 (Some (src_id e)) (lit "Worker " ++ sdec (src_id e))). split; [|auto]. right. apply in_or_app. left. apply in_flat_map.
  exists (src_id e). split; [|now left]. apply upto_in. split; [lia|]. unfold max_thread_id. now apply (fold_max_ge src_id (shown start) l 0).
Qed.
Lemma objects_named table rest : forall i k o, nth_error rest k = Some o -> o_type o = trace_reactor ->
  named (object_names table rest i) (i + Z.of_nat k + 1) None.
Proof.
  induction rest as [|x rest IH]; intros i k o H T; [now destruct k|]. cbn [object_names]. destruct k as [|k].
  - cbn in H. injection H as ->. rewrite T. cbn. eexists. split; [left; reflexivity|]. cbn. split; [lia|reflexivity].
  - cbn in H. destruct (IH (i + 1) k o H T) as (m & A & B & C). exists m. split; [apply in_or_app; now right|]. split; [lia|exact C].
Qed.

Lemma lookup_find p : forall table i, option_map fst (lookup p i table) = find p table.
Proof. induction table as [|o table IH]; intros i; cbn; [reflexivity|]. destruct (p o); [reflexivity|apply IH]. Qed.
Lemma object_label table ptr d : text_of (fst (get_object_description table ptr)) d = match reactor_label table ptr with Some t => t | None => d end.
Proof.
  unfold get_object_description, reactor_label. rewrite <- (lookup_find (fun o => o_pointer o =? ptr) table 0).
  destruct (lookup _ 0 table) as [[o k]|]; reflexivity.
Qed.
Lemma trigger_named table ptr d : text_of (fst (get_trigger_name table ptr)) d = match trigger_label table ptr with Some t => t | None => d end.
Proof.
  unfold get_trigger_name, trigger_label. rewrite <- (lookup_find (fun o => (o_trigger o =? ptr) && (o_type o =? 1)) table 0).
  unfold trace_trigger. destruct (lookup _ 0 table) as [[o k]|]; reflexivity.
Qed.

(** One entry of a sound trace, by its kind *)
Definition args_of (start : Z) (e : entry) : text :=
  args (if 0 <=? dst_id e then snprintf 4 (sdec (dst_id e)) else lit """UNKNOWN""") ((logical_time e - start) / 1000) ((physical_time e - start) / 1000) (to_signed 32 (microstep e)).
Lemma convert_sound table start (only : bool) e : sound start e -> event_type e <= 10 ->
  let k := event_type e in let name d := match reactor_label table (pointer e) with Some t => t | None => d end in
  let d := if (k =? 6) || (k =? 7) then lit "WAIT" else if k =? 8 then lit "ADVANCE TIME" else lit "NO REACTOR" in
  let ri := snd (get_object_description table (pointer e)) in let ti := snd (get_trigger_name table (trigger e)) in
  let p := (physical_time e - start) / 1000 in let g := (logical_time e - start) / 1000 in
  let j := if (k =? 0) || (k =? 6) || (k =? 8) then mkEvent (name d) (event_name k) (lit "B") (src_id e) 0 p (args_of start e)
           else if (k =? 1) || (k =? 7) || (k =? 9) then mkEvent (name d) (event_name k) (lit "E") (src_id e) 0 p (args_of start e)
           else if k =? 3 then mkEvent (match trigger_label table (trigger e) with Some t => t | None => lit "NONE" end) (event_name k) (lit "i") ti (ri + 1) (if only then p else g + Z.quot (extra_delay e) 1000) (args_of start e)
           else if k =? 4 then mkEvent (name d) (event_name k) (lit "i") ri PID_FOR_USER_EVENT (if only then p else g) (args_of start e)
           else if k =? 5 then mkEvent (name d) (event_name k) (lit "C") ri PID_FOR_USER_EVENT (if only then p else g) (value_args (extra_delay e))
           else mkEvent (name d) (event_name k) (lit "i") (src_id e) PID_FOR_UNKNOWN_EVENT p (args_of start e) in
  convert table start only e = TraceCsv.Ok (j :: if (k =? 0) && negb only
     then [mkEvent (snprintf 13 (lit "reaction " ++ sdec (dst_id e))) (lit "Reaction") (lit "i") (1024 + dst_id e) (ri + 1) g (instant_args (to_signed 32 (microstep e)) p)] else []).
Proof.
  intros (T & K & A & B & C & D & G) K10. destruct T as (T1 & T2 & T3 & T4 & T5 & T6 & T7). cbv zeta.
  unfold convert. cbv zeta. unfold federated. replace (10 <? event_type e) with false by lia.
  rewrite <- trigger_named, <- object_label.
  destruct (get_object_description table (pointer e)) as [l ri]. destruct (get_trigger_name table (trigger e)) as [tl ti]. cbn [fst snd].
  assert (F1 : fits64 (physical_time e - start) = true) by (unfold fits64; change (2 ^ 63) with 9223372036854775808 in *; lia).
  assert (F2 : fits64 (logical_time e - start) = true) by (unfold fits64; change (2 ^ 63) with 9223372036854775808 in *; lia).
  rewrite F1, F2. cbn [negb orb]. rewrite !quot_div by lia.
  assert (P0 : 0 <= (physical_time e - start) / 1000) by (apply Z.div_pos; lia). assert (L0 : 0 <= (logical_time e - start) / 1000) by (apply Z.div_pos; lia).
  destruct (Z.ltb_spec ((physical_time e - start) / 1000) 0); [lia|]. destruct (Z.ltb_spec ((logical_time e - start) / 1000) 0); [lia|].
  destruct (Z.ltb_spec (event_type e) 0); [lia|].
  assert (F3 : fits32 (1024 + dst_id e) = true) by (unfold fits32 in *; change (2 ^ 31) with 2147483648 in *; lia).
  rewrite F3. unfold starts, ends, args_of, reaction_starts, worker_wait_starts, scheduler_advancing_time_starts, reaction_ends, worker_wait_ends, scheduler_advancing_time_ends, schedule_called, user_event, user_value.
  rewrite orb_diag. destruct ((event_type e =? 0) && negb only); reflexivity.
Qed.

Lemma convert_all_in table start only l : Forall (sound start) l -> forall js, convert_all table start only l = TraceCsv.Ok js ->
  forall j, In j js -> exists e a, In e l /\ convert table start only e = TraceCsv.Ok a /\ In j a.
Proof.
  induction 1 as [|e l A B IH]; intros js H j J; cbn [convert_all] in H; [injection H as <-; destruct J|].
  destruct (convert table start only e) as [a|] eqn:Q; [|discriminate]. destruct (convert_all table start only l) as [r|]; [|discriminate].
  injection H as <-. apply in_app_or in J. destruct J as [J|J]; [exists e, a; split; [now left|auto]|].
  destruct (IH r eq_refl j J) as (e' & a' & X & Y). exists e', a'. split; [now right|exact Y].
Qed.
Lemma sound_shown start e : sound start e -> event_type e <= 10 -> shown start e = true.
Proof.
  intros (T & K & A & B & _) K10. unfold shown, federated. rewrite !quot_div by lia.
  assert (0 <= (physical_time e - start) / 1000) by (apply Z.div_pos; lia). assert (0 <= (logical_time e - start) / 1000) by (apply Z.div_pos; lia). lia.
Qed.
Lemma convert_federated table start only e a : 10 < event_type e -> convert table start only e = TraceCsv.Ok a -> a = [].
Proof. intros L H. unfold convert in H. cbv zeta in H. unfold federated in H. replace (10 <? event_type e) with true in H by lia. congruence. Qed.
Lemma rows_named table top start only l js j : Forall (sound start) l -> convert_all table start only l = TraceCsv.Ok js -> In j js ->
  0 <= j_tid j -> bound j = true ->
  let ms := metadata table top (max_thread_id start l) (max_reaction_number start only l) in
  named ms (j_pid j) (Some (j_tid j)) /\ named ms (j_pid j) None.
Proof.
  intros F H J T B. cbv zeta. destruct (convert_all_in _ _ _ _ F js H j J) as (e & a & E1 & E2 & E3).
  pose proof (proj1 (Forall_forall _ _) F e E1) as S1.
  destruct (Z_lt_le_dec 10 (event_type e)) as [L|L]; [rewrite (convert_federated _ _ _ _ _ L E2) in E3; destruct E3|].
  assert (X : j_pid j = 0 /\ j_tid j = src_id e).
  { pose proof (convert_sound table start only e S1 L) as Q. cbv zeta in Q. rewrite E2 in Q. assert (Qa := f_equal (fun o => match o with TraceCsv.Ok a => a | Undefined => [] end) Q). cbv beta iota in Qa. clear Q E2. subst a.
    destruct E3 as [E3|E3].
    - rewrite <- E3 in *. clear - B. revert B. repeat match goal with |- context [if ?b then mkEvent _ _ _ _ _ _ _ else _] => destruct b end; unfold bound; cbn [j_ph j_pid j_tid]; intros B; first [split; reflexivity|discriminate B].
    - destruct ((event_type e =? 0) && negb only); [|destruct E3]. destruct E3 as [<-|[]]. discriminate B. }
  destruct X as [-> X]. rewrite X in *. split.
  - apply thread_named; [exact T|]. exists e. split; [exact E1|]. split; [now apply sound_shown|reflexivity].
  - exists (mkMeta 0 None (lit "Execution of " ++ top)). split; [|split; reflexivity]. unfold metadata. right. do 3 (apply in_or_app; right). now left.
Qed.
Lemma reaction_named table top start l e : Forall (sound start) l -> In e l -> event_type e = 0 -> 0 <= dst_id e -> table <> [] ->
  let ms := metadata table top (max_thread_id start l) (max_reaction_number start false l) in
  exists b i, convert table start false e = TraceCsv.Ok [b; i] /\ bound b = true /\ named ms (j_pid i) (Some (j_tid i)) /\ j_tid i = 1024 + dst_id e /\ j_ts i = (logical_time e - start) / 1000.
Proof.
  intros F I K D N. cbv zeta. pose proof (proj1 (Forall_forall _ _) F e I) as S1.
  pose proof (convert_sound table start false e S1 ltac:(lia)) as Q. cbv zeta in Q. rewrite K in Q. cbn [Z.eqb andb orb negb] in Q.
  do 2 eexists. split; [exact Q|]. split; [reflexivity|]. split; [|split; reflexivity]. cbn [j_pid j_tid].
  exists (mkMeta (snd (get_object_description table (pointer e)) + 1) (Some (dst_id e + 1024)) (lit "Reaction " ++ sdec (dst_id e))).
  split; [|split; [reflexivity|cbn [m_tid]; f_equal; lia]]. unfold metadata. right. apply in_or_app. right. apply in_or_app. left. apply in_flat_map.
  exists (snd (get_object_description table (pointer e)) + 1). split.
  - apply upto_in. unfold get_object_description. destruct (lookup _ 0 table) as [[o k]|] eqn:L; [apply lookup_in in L|]; cbn [snd]; [lia|]. destruct table; [contradiction|cbn [List.length]; lia].
  - apply in_map_iff. exists (dst_id e). split; [reflexivity|]. apply upto_in. split; [lia|]. unfold max_reaction_number.
    apply (fold_max_ge dst_id (fun e => shown start e && (event_type e =? reaction_starts) && true) l 0 ); [exact I|].
    rewrite (sound_shown start e S1) by lia. rewrite K. reflexivity.
Qed.

(** Rows without a name *)
Lemma object_names_rows table rest : forall i m, 0 <= i -> In m (object_names table rest i) ->
  1 <= m_pid m <= Z.max (Z.max (Z.of_nat (List.length table) + 1) (i + Z.of_nat (List.length rest))) PID_FOR_USER_EVENT
  /\ match m_tid m with Some t => 0 <= t | None => True end.
Proof.
  induction rest as [|o rest IH]; intros i m I M; cbn [object_names] in M; [destruct M|]. cbn [List.length]. apply in_app_or in M. destruct M as [M|M].
  - assert (O : 0 <= snd (get_object_description table (o_pointer o)) <= Z.of_nat (List.length table)).
    { unfold get_object_description. destruct (lookup _ 0 table) as [[x k]|] eqn:L; [apply lookup_in in L|]; cbn [snd]; lia. }
    unfold PID_FOR_USER_EVENT in *.
    destruct (o_type o =? trace_trigger); [|destruct (o_type o =? trace_reactor); [|destruct (o_type o =? trace_user); [|destruct M]]];
      destruct M as [<-|[]]; cbn [m_pid m_tid]; split; try exact Logic.I; lia.
  - apply IH in M; [|lia]. destruct M as [M1 M2]. split; [|exact M2]. lia.
Qed.
Lemma metadata_rows table top th re m : In m (metadata table top th re) ->
  0 <= m_pid m <= Z.max (Z.of_nat (List.length table) + 1) PID_FOR_USER_EVENT /\ match m_tid m with Some t => 0 <= t | None => True end.
Proof.
  unfold metadata. intros [<-|M]; [cbn [m_pid m_tid]; unfold PID_FOR_USER_EVENT; lia|]. apply in_app_or in M. destruct M as [M|M].
  { apply in_flat_map in M. destruct M as (i & I & M). apply upto_in in I. cbv zeta in M. destruct M as [<-|[<-|[<-|[]]]]; cbn [m_pid m_tid]; unfold PID_FOR_USER_EVENT; lia. }
  apply in_app_or in M. destruct M as [M|M].
  { apply in_flat_map in M. destruct M as (i & I & M). apply upto_in in I. apply in_map_iff in M. destruct M as (n & <- & M). apply upto_in in M. cbn [m_pid m_tid]. lia. }
  apply in_app_or in M. destruct M as [M|M].
  { apply object_names_rows in M; [|lia]. destruct M as [M1 M2]. split; [lia|exact M2]. }
  destruct M as [<-|[]]. cbn [m_pid m_tid]. split; [unfold PID_FOR_USER_EVENT; lia|exact Logic.I].
Qed.
