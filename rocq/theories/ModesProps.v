(** Modal reactors: the current mode, the active modes (C37), and events of modes that are
    not active (C38). *)
From Coq Require Import Permutation.
From Verif Require Import Base Tag TagSpec TagProofs.
From Verif Require TagBarrierProofs.
Import TagBarrierProofs.
From Verif Require Import Modes ModesSpec ModesProofs ModesEventsProofs ModesSwitchProofs.

(** ** C37 *)
Theorem C37_current p t0 st s es i : program_ok p -> exec p t0 st s es -> (i < size p)%nat -> owner p (cur s i) = i.
Proof. intros OK X. apply (o_cur _ _ (proj1 (exec_good p OK _ _ _ _ X))). Qed.

Theorem C37_active p t0 st s es m : program_ok p -> exec p t0 st s es -> (owner p m < size p)%nat ->
  is_active s (Some m) = true <-> Active p (cur s) m.
Proof. intros OK X. apply (local_active p OK), (exec_good p OK _ _ _ _ X). Qed.

(** The modes that are entered at the end of a tag: the requested ones, and the initial modes
    of reactors in modes that are reset. *)
Theorem C37_transition p t0 st s es t s' l : program_ok p -> exec p t0 st s es -> step p s (Advance t) = Some (s', l) ->
  exists go, transitions p s go /\
    (forall i, (i < size p)%nat -> cur s' i = (match go i with Some (m, _) => m | None => cur s i end) /\ requested s' i = None) /\
    (forall m c at_, In (Entered m c at_) l <-> at_ = now s /\ exists i, (i < size p)%nat /\ go i = Some (m, c)).
Proof.
  intros OK X. cbn [step]. destruct (process_switch p OK s (exec_good p OK _ _ _ _ X)) as (go & G1 & G2 & G3).
  destruct (process p s) as [s1 e1]. cbn [fst snd] in *. destruct (_ && _); [|discriminate]. intros H. injection H as <- <-.
  exists go. split; [exact G1|]. split; [|exact G3]. intros i Hi. set (s2 := mkState _ _ _ _ _ (filter _ _) _ _ _ _ _ _ _). destruct (handled_cur p s2) as (A & B). unfold requested. rewrite A, B. unfold s2. cbn [cur next]. destruct (G2 i Hi) as (C & D). now rewrite D.
Qed.

(** Only the reactions of active modes can have events: the event queue holds none of a
    mode that is not active. *)
Theorem C37_queue p t0 st s es e tr m : program_ok p -> 0 < t0 < FOREVER -> exec p t0 st s es -> In e (q s) -> belongs p e tr m -> Active p (cur s) m.
Proof.
  intros OK T X He Hb. apply (C37_active p t0 st s es m OK X); [destruct Hb; now apply (po_modes _ OK tr)|]. cbn. eapply v_act; eauto using exec_events.
Qed.

(** ** C38 *)
(** An event is suspended at most once. *)
Theorem C38_once p t0 st s es id tr tr' old old' d d' : exec p t0 st s es -> In (Suspends id tr old d) es -> In (Suspends id tr' old' d') es -> tr = tr' /\ old = old' /\ d = d'.
Proof. intros X. apply once_of_ids. apply (d_once _ _ (exec_ids p _ _ _ _ X)). Qed.

(** Events of modes that are not inside of other modes.  Missing for the full statement: modes
    inside of modes, of which it is false, see [C38_nested_refuted]. *)
Theorem C38_delay_partial p t0 st s es id tr old new at_ m : program_ok p -> 0 < t0 < FOREVER -> exec p t0 st s es ->
  In (Resumes id tr old new at_) es -> tmode p tr = Some m -> outermost p m ->
  exists d, In (Suspends id tr old d) es /\ ttime new = ttime at_ + (ttime old - ttime d) /\ tag_lt at_ new.
Proof. intros OK T X. apply (v_trace _ _ _ (exec_events p OK _ _ _ _ T X)). Qed.

Theorem C38_not_refused_partial p t0 st s es id tr old new at_ m : program_ok p -> 0 < t0 < FOREVER -> exec p t0 st s es ->
  tmode p tr = Some m -> outermost p m -> ~ In (Refused id tr old new at_) es.
Proof. intros OK T X. apply (v_trace _ _ _ (exec_events p OK _ _ _ _ T X)). Qed.

Lemma advance_split p s es t s' l : program_ok p -> events_ok p s es -> step p s (Advance t) = Some (s', l) ->
  l = snd (process p s) /\ susp s' = susp (fst (process p s)) /\
  (forall m tr u, act (flags (fst (process p s)) m) = true -> tmode p tr = Some m -> in_queue (fst (process p s)) tr u -> in_queue s' tr u \/ u = t).
Proof.
  intros OK V. cbn [step]. destruct (process p s) as [s1 e1]. cbn [fst snd]. destruct (_ && _); [|discriminate]. intros H. injection H as <- <-.
  set (s2 := mkState _ _ _ _ _ (filter _ _) _ _ _ _ _ _ _). destruct (handled_same p s2) as (H1 & H2 & _). split; [reflexivity|]. split; [exact H2|].
  intros m tr u _ _ (e & E1 & E2 & E3). destruct (tag_compare (etag e) t =? 0) eqn:C.
  - right. apply Z.eqb_eq, tag_compare_eq in C. congruence.
  - left. exists e. split; [|auto]. rewrite H1. apply filter_In. split; [exact E1|]. now rewrite C.
Qed.

(** When a mode is entered by history, each of its suspended events is resumed with the
    delay that remained when it was suspended: it is put into the event queue again, unless
    it is due after the end of the program, or there is another event of the trigger with the
    same tag and the policy is not to defer, or the time does not fit into 64 bits. *)
Theorem C38_resume_partial p t0 st s es t s' l m at_ e tr : program_ok p -> 0 < t0 < FOREVER -> exec p t0 st s es -> step p s (Advance t) = Some (s', l) ->
  In (Entered m History at_) l -> outermost p m -> In e (susp s) -> belongs p e tr m ->
  ~ In e (susp s') /\ at_ = now s /\
  exists d, In (Suspends (eid e) tr (etag e) d) es /\ ttime d <= ttime (etag e) /\
    let due := ttime at_ + (ttime (etag e) - ttime d) in
    (exists u, In (Resumes (eid e) tr (etag e) u at_) l /\ ttime u = due /\ tag_lt at_ u /\ (in_queue s' tr u \/ u = t)) \/
    (exists u, In (TooLate (eid e) tr (etag e) u at_) l /\ ttime u = due /\ exists v, ttime v = due /\ tag_lt (stop s) v) \/
    (exists u, In (Merged (eid e) tr (etag e) u at_) l /\ ttime u = due /\ pol p tr <> Defer) \/
    In (Overflows (eid e) tr (etag e) at_) l /\ ~ (in_int64 (ttime (etag e) - ttime d) /\ in_int64 due).
Proof.
  intros OK T X St En Om He Hb. pose proof (exec_events p OK _ _ _ _ T X) as V. destruct (advance_split _ _ _ _ _ _ OK V St) as (-> & Su & Qu).
  destruct (process_events p OK s es V) as (V' & _ & _ & Pr). destruct (Pr _ _ _ En) as (-> & Hm & Cm & An & _ & Gone). split; [rewrite Su; intros K; now apply (Gone Om e tr K)|]. split; [reflexivity|].
  destruct (v_susp _ _ _ V e tr m He Hb Om) as (_ & d & D1 & D2 & D3). exists d. split; [exact D1|]. split; [exact D3|]. cbv zeta. rewrite D2.
  assert (act (flags (fst (process p s)) m) = true) as Am. { apply (proj2 (v_good _ _ _ V')); [exact Hm|]. split; [exact Cm|]. now rewrite (proj2 Om). }
  destruct (An e tr He Hb Om) as [(u & A & B)|[(u & A & B & v & B1 & B2)|[(u & A & B & B1)|(A & B)]]].
  - left. exists u. split; [exact A|]. split; [exact B|]. destruct Hb as (Hb1 & Hb2). split.
    + destruct (proj1 (v_trace _ _ _ V') (eid e) tr (etag e) u (now s) m) as (_ & _ & _ & K); auto. apply in_or_app. now right.
    + apply (Qu m); [exact Am|exact Hb2|]. apply (process_filed p s m _ A Am Hb2).
  - right. left. exists u. split; [exact A|]. split; [exact B|]. exists v. split; [congruence|exact B2].
  - right. right. left. eauto.
  - do 3 right. auto.
Qed.

(** When a mode (inside of others or not) is entered by a reset, each of its suspended
    events is dropped and its timers start anew.  Missing: that no event of an outer mode's
    inner modes is left behind is a consequence of [C37_transition] for the initial modes
    only; a timer that fires once can be restarted twice, see [C38_oneshot_refuted]. *)
Theorem C38_reset_partial p t0 st s es t s' l m at_ : program_ok p -> 0 < t0 < FOREVER -> exec p t0 st s es -> step p s (Advance t) = Some (s', l) ->
  In (Entered m Reset at_) l ->
  at_ = now s /\
  (forall e tr, In e (susp s) -> belongs p e tr m ->
     In (Discards (eid e) tr (etag e) at_) l /\ (outermost p m -> ~ In e (susp s')) /\
     (is_timer p tr = true -> 0 < period p tr -> let u := delay_tag at_ (offset p tr) in
        In (Restarts tr u at_) l /\ (outermost p m -> in_queue s' tr u \/ u = t) \/ tag_lt (stop s) u)) /\
  (forall tr, In tr (timers p) -> tmode p tr = Some m -> period p tr = 0 ->
     exists u, ttime u = ttime (delay_tag at_ (offset p tr)) /\ (In (Restarts tr u at_) l /\ (outermost p m -> in_queue s' tr u \/ u = t) \/ tag_lt (stop s) u)).
Proof.
  intros OK T X St En. pose proof (exec_events p OK _ _ _ _ T X) as V. destruct (advance_split _ _ _ _ _ _ OK V St) as (-> & Su & Qu).
  destruct (process_events p OK s es V) as (V' & _ & _ & Pr). destruct (Pr _ _ _ En) as (-> & Hm & Cm & An & On & Gone). split; [reflexivity|].
  assert (forall tr u, tmode p tr = Some m -> In (Restarts tr u (now s)) (snd (process p s)) -> outermost p m -> in_queue s' tr u \/ u = t) as K.
  { intros tr u Tm Hr Om. assert (act (flags (fst (process p s)) m) = true) as Am. { apply (proj2 (v_good _ _ _ V')); [exact Hm|]. split; [exact Cm|]. now rewrite (proj2 Om). }
    apply (Qu m); [exact Am|exact Tm|]. apply (process_filed p s m _ Hr Am Tm). }
  split.
  - intros e tr He Hb. destruct (An e tr He Hb) as (A & B). split; [exact A|]. split; [intros Om Hs; rewrite Su in Hs; now apply (Gone Om e tr)|]. intros Ti Pe. destruct (B Ti Pe) as [R|R]; [left|now right]. split; [exact R|]. apply K; [apply Hb|exact R].
  - intros tr Ht Tm Pe. destruct (On eq_refl tr Ht Tm Pe) as (u & U1 & U2). exists u. split; [exact U1|]. destruct U2 as [U2|U2]; [left; split; [exact U2|now apply K]|now right].
Qed.

(** ** A checker, for the examples *)
Definition ev_eqb (a b : ev) : bool :=
  Nat.eqb (eid a) (eid b) && (match etrig a, etrig b with Some x, Some y => Nat.eqb x y | None, None => true | _, _ => false end) && (tag_compare (etag a) (etag b) =? 0).
Lemma ev_eqb_ok a b : ev_eqb a b = true -> a = b.
Proof.
  unfold ev_eqb. rewrite !andb_true_iff. intros ((A & B) & C). apply Nat.eqb_eq in A. apply Z.eqb_eq, tag_compare_eq in C. destruct a as [i x u], b as [j y v]. cbn in *. subst.
  destruct x, y; try discriminate; [apply Nat.eqb_eq in B; now subst|reflexivity].
Qed.
Fixpoint evs_eqb (a b : list ev) : bool := match a, b with [], [] => true | x :: a, y :: b => ev_eqb x y && evs_eqb a b | _, _ => false end.
Lemma evs_eqb_ok a : forall b, evs_eqb a b = true -> a = b.
Proof. induction a as [|x a IH]; intros [|y b]; cbn; try discriminate; [reflexivity|]. rewrite andb_true_iff. intros (A & B). apply ev_eqb_ok in A. apply IH in B. now subst. Qed.
Definition tag_okb (t : tag) : bool := (LLONG_MIN <=? ttime t) && (ttime t <? FOREVER) && (0 <=? tmicro t) && (tmicro t <? UINT_MAX - 1).
Definition allowedb (p : program) (s : state) (o : op) : bool :=
  match o with
  | SetMode i m c => (i <? size p)%nat && Nat.eqb (owner p m) i && match c with NoTransition => false | _ => true end
  | Schedule tr t => (tag_compare (now s) t <? 0) && is_active s (tmode p tr)
  | Reorder l => evs_eqb (rev (q s)) l
  | Advance t => tag_okb t
  end.
Lemma allowedb_ok p t0 st s es o : program_ok p -> exec p t0 st s es -> allowedb p s o = true -> allowed p s o.
Proof.
  intros OK X. destruct o as [i m c|tr t|l|t]; cbn [allowedb allowed].
  - rewrite !andb_true_iff. intros ((A & B) & C). apply Nat.ltb_lt in A. apply Nat.eqb_eq in B. split; [exact A|]. split; [exact B|]. now destruct c.
  - rewrite andb_true_iff. intros (A & B). apply cmp_lt0 in A. split; [exact A|]. destruct (tmode p tr) as [m|] eqn:T; [|exact I]. apply (C37_active p t0 st s es); auto. now apply (po_modes _ OK tr).
  - intros H. apply evs_eqb_ok in H. subst l. apply Permutation_rev.
  - unfold tag_okb. rewrite !andb_true_iff. intros (((A & B) & C) & D). apply Z.leb_le in A, C. apply Z.ltb_lt in B, D. unfold tag_ok, in_int64, in_uint32, UINT_MAX, two32, FOREVER, LLONG_MAX, LLONG_MIN in *. lia.
Qed.
Fixpoint run (p : program) (s : state) (es : list event) (os : list op) : option (state * list event) :=
  match os with
  | [] => Some (s, es)
  | o :: os => if allowedb p s o then match step p s o with Some (s', l) => run p s' (es ++ l) os | None => None end else None
  end.
Lemma run_exec p t0 st os : program_ok p -> forall s es s' es', exec p t0 st s es -> run p s es os = Some (s', es') -> exec p t0 st s' es'.
Proof.
  intros OK. induction os as [|o os IH]; intros s es s' es' X; cbn [run]; [intros H; now injection H as <- <-|].
  destruct (allowedb p s o) eqn:A; [|discriminate]. destruct (step p s o) as [[s1 l]|] eqn:S1; [|discriminate]. apply IH. eapply exec_step; [exact X|eapply allowedb_ok; eassumption|exact S1].
Qed.
Definition start_run (p : program) (t0 : Z) (st : tag) (os : list op) : option (state * list event) :=
  let (s, es) := init p t0 st in run p s es os.
Lemma start_exec p t0 st os s es : program_ok p -> start_run p t0 st os = Some (s, es) -> exec p t0 st s es.
Proof. intros OK H. unfold start_run in H. pose proof (exec_start p t0 st) as X. destruct (init p t0 st) as [s0 e0]. eapply run_exec; eassumption. Qed.

(** Reactor 0 has the modes 0 and 1; reactor 1 is inside of mode 0 and has the modes 2
    and 3.  The triggers 0 and 1 are an action and a periodic timer in mode 0, 2 and 3 an action in
    mode 2 and a timer in mode 1 that fires once. *)
Definition demo : program :=
  mkProgram 2 (fun m => match m with 0 | 1 => 0 | 2 | 3 => 1 | _ => 2 end)%nat (fun i => match i with 1%nat => Some 0%nat | _ => None end)
    (fun i => match i with 0 => 0 | _ => 2 end)%nat [1; 3]%nat (fun tr => match tr with 0 => Some 0 | 1 => Some 0 | 2 => Some 2 | 3 => Some 1 | _ => None end)%nat
    (fun tr => match tr with 1 | 3 => true | _ => false end)%nat (fun tr => match tr with 3%nat => 100 | _ => 50 end) (fun tr => match tr with 1%nat => 300 | _ => 0 end) (fun _ => Defer).
Lemma demo_ok : program_ok demo.
Proof.
  split.
  - intros [|[|i]]; cbn; auto. lia.
  - intros [|[|i]] m; cbn; try discriminate. intros _ H. injection H as <-. cbn. lia.
  - intros [|[|[|[|tr]]]]; cbn; unfold LLONG_MAX; lia.
  - intros [|[|[|[|tr]]]] m; cbn; try discriminate; intros H; injection H as <-; cbn; lia.
  - cbn. repeat constructor; cbn; intuition discriminate.
  - intros tr [<-|[<-|[]]]; reflexivity.
Qed.
Definition T (t : Z) : tag := mkTag t 0.
Definition end_ := T 100000.

(** The action of mode 0 is suspended at 1100 with 400 to go and resumed at 1250. *)
Definition history_run : list op := [Schedule 0%nat (T 1500); Advance (T 1100); SetMode 0%nat 1%nat History; Advance (mkTag 1100 1); Advance (T 1200); Advance (T 1250); SetMode 0%nat 0%nat History].
Example C38_resume_hypotheses : exists s es s' l e, exec demo 1000 end_ s es /\ step demo s (Advance (T 1300)) = Some (s', l) /\
  In (Entered 0%nat History (T 1250)) l /\ outermost demo 0%nat /\ In e (susp s) /\ belongs demo e 0%nat 0%nat /\
  In (Resumes (eid e) 0%nat (T 1500) (T 1650) (T 1250)) l.
Proof.
  destruct (start_run demo 1000 end_ history_run) as [[s es]|] eqn:R; [|vm_compute in R; discriminate].
  exists s, es. pose proof (start_exec _ _ _ _ _ _ demo_ok R) as X. vm_compute in R. injection R as <- <-.
  eexists. eexists. eexists. split; [exact X|]. split; [vm_compute; reflexivity|]. split; [cbn; auto 10|]. split; [split; [cbn; lia|reflexivity]|]. split; [cbn; left; reflexivity|]. split; [cbv; auto|]. cbn. auto 10.
Qed.
(** Mode 1 with its timer is entered by a reset. *)
Definition reset_run : list op := [Schedule 0%nat (T 1500); Advance (T 1100); SetMode 0%nat 1%nat Reset; Advance (mkTag 1100 1); Advance (T 1150); SetMode 0%nat 0%nat Reset].
Example C38_reset_hypotheses : exists s es s' l e, exec demo 1000 end_ s es /\ step demo s (Advance (mkTag 1150 1)) = Some (s', l) /\
  In (Entered 0%nat Reset (T 1150)) l /\ In (Entered 2%nat Reset (T 1150)) l /\ In e (susp s) /\ belongs demo e 0%nat 0%nat /\ In (Discards (eid e) 0%nat (T 1500) (T 1150)) l.
Proof.
  destruct (start_run demo 1000 end_ reset_run) as [[s es]|] eqn:R; [|vm_compute in R; discriminate].
  exists s, es. pose proof (start_exec _ _ _ _ _ _ demo_ok R) as X. vm_compute in R. injection R as <- <-.
  eexists. eexists. eexists. split; [exact X|]. split; [vm_compute; reflexivity|]. split; [cbn; auto 12|]. split; [cbn; auto 12|]. split; [cbn; left; reflexivity|]. split; [cbv; auto|]. cbn. auto 12.
Qed.

(** Mode 2 is current but not active: the mode around it has been left. *)
Example C37_hypotheses : exists s es, exec demo 1000 end_ s es /\ cur s 1%nat = 2%nat /\ is_active s (Some 2%nat) = false /\ is_active s (Some 1%nat) = true.
Proof.
  destruct (start_run demo 1000 end_ [Advance (T 1100); SetMode 0%nat 1%nat Reset; Advance (mkTag 1100 1)]) as [[s es]|] eqn:R; [|vm_compute in R; discriminate].
  exists s, es. pose proof (start_exec _ _ _ _ _ _ demo_ok R) as X. vm_compute in R. injection R as <- <-. split; [exact X|]. now vm_compute.
Qed.

(** *** What is false *)
(** When the outer mode is entered again by history, the events of the mode inside stay
    suspended although that mode is active again. *)
Definition nested_run : list op := [Schedule 2%nat (T 1500); Advance (T 1100); SetMode 0%nat 1%nat History; Advance (mkTag 1100 1); Advance (T 1200); SetMode 0%nat 0%nat History; Advance (T 1300)].
Theorem C38_nested_refuted : exists p t0 st s es e tr m, program_ok p /\ 0 < t0 < FOREVER /\ exec p t0 st s es /\
  In e (susp s) /\ belongs p e tr m /\ Active p (cur s) m.
Proof.
  exists demo, 1000, end_. destruct (start_run demo 1000 end_ nested_run) as [[s es]|] eqn:R; [|vm_compute in R; discriminate].
  exists s, es. pose proof (start_exec _ _ _ _ _ _ demo_ok R) as X. vm_compute in R. injection R as <- <-.
  eexists. exists 2%nat, 2%nat. split; [exact demo_ok|]. split; [now vm_compute|]. split; [exact X|]. split; [cbn; left; reflexivity|]. split; [cbv; auto|].
  eapply active_inner; [reflexivity|reflexivity|]. apply active_top; reflexivity.
Qed.
(** If the mode inside is left and entered again later on, the event is resumed with another
    delay: it had 400 to go and gets 200. *)
Definition wrong_run : list op := nested_run ++ [SetMode 1%nat 3%nat History; Advance (mkTag 1300 1); Advance (T 1400); SetMode 1%nat 2%nat History; Advance (T 1450)].
Theorem C38_delay_refuted : exists p t0 st s es id tr old new at_ d, program_ok p /\ 0 < t0 < FOREVER /\ exec p t0 st s es /\
  In (Suspends id tr old d) es /\ In (Resumes id tr old new at_) es /\ ttime new <> ttime at_ + (ttime old - ttime d).
Proof.
  exists demo, 1000, end_. destruct (start_run demo 1000 end_ wrong_run) as [[s es]|] eqn:R; [|vm_compute in R; discriminate].
  exists s, es. pose proof (start_exec _ _ _ _ _ _ demo_ok R) as X. vm_compute in R. injection R as <- <-.
  exists 1%nat, 2%nat, (T 1500), (T 1600), (T 1400), (T 1100). split; [exact demo_ok|]. split; [now vm_compute|]. split; [exact X|]. split; [cbn; auto 20|]. split; [cbn; auto 20|]. now vm_compute.
Qed.
(** A history transition of the mode inside to itself drops the event. *)
Definition drop_run : list op := nested_run ++ [SetMode 1%nat 2%nat History; Advance (T 1400)].
Theorem C38_history_drops_refuted : exists p t0 st s es id tr old m at_, program_ok p /\ 0 < t0 < FOREVER /\ exec p t0 st s es /\
  tmode p tr = Some m /\ In (Entered m History at_) es /\ ~ In (Entered m Reset at_) es /\ In (Discards id tr old at_) es.
Proof.
  exists demo, 1000, end_. destruct (start_run demo 1000 end_ drop_run) as [[s es]|] eqn:R; [|vm_compute in R; discriminate].
  exists s, es. pose proof (start_exec _ _ _ _ _ _ demo_ok R) as X. vm_compute in R. injection R as <- <-.
  exists 1%nat, 2%nat, (T 1500), 2%nat, (T 1300). split; [exact demo_ok|]. split; [now vm_compute|]. split; [exact X|]. split; [reflexivity|]. split; [cbn; auto 20|]. split; [cbn; intuition discriminate|]. cbn. auto 20.
Qed.
(** A timer that fires once and has not fired yet is restarted twice by a reset. *)
Definition oneshot_run : list op := [Advance (T 1100); SetMode 0%nat 1%nat Reset; Advance (mkTag 1100 1)].
Theorem C38_oneshot_refuted : exists p t0 st s es tr u v at_, program_ok p /\ 0 < t0 < FOREVER /\ exec p t0 st s es /\
  period p tr = 0 /\ In (Restarts tr u at_) es /\ In (Restarts tr v at_) es /\ u <> v /\ in_queue s tr u /\ in_queue s tr v.
Proof.
  exists demo, 1000, end_. destruct (start_run demo 1000 end_ oneshot_run) as [[s es]|] eqn:R; [|vm_compute in R; discriminate].
  exists s, es. pose proof (start_exec _ _ _ _ _ _ demo_ok R) as X. vm_compute in R. injection R as <- <-.
  exists 3%nat, (T 1200), (mkTag 1200 1), (T 1100). split; [exact demo_ok|]. split; [now vm_compute|]. split; [exact X|]. split; [reflexivity|]. split; [cbn; auto 20|]. split; [cbn; auto 20|]. split; [discriminate|].
  split; [exists (mkEv 1 (Some 3%nat) (T 1200))|exists (mkEv 2 (Some 3%nat) (mkTag 1200 1))]; (split; [cbn; auto|split; reflexivity]).
Qed.
(** A reset of the current mode to itself does not restart its periodic timers. *)
Definition self_run : list op := [Schedule 1%nat (T 1350); Advance (T 1100); SetMode 0%nat 0%nat Reset; Advance (mkTag 1100 1)].
Theorem C38_self_reset_refuted : exists p t0 st s es tr m at_, program_ok p /\ 0 < t0 < FOREVER /\ exec p t0 st s es /\
  is_timer p tr = true /\ 0 < period p tr /\ tmode p tr = Some m /\ In (Entered m Reset at_) es /\ (forall u, ~ In (Restarts tr u at_) es) /\ ~ in_queue s tr (delay_tag at_ (offset p tr)).
Proof.
  exists demo, 1000, end_. destruct (start_run demo 1000 end_ self_run) as [[s es]|] eqn:R; [|vm_compute in R; discriminate].
  exists s, es. pose proof (start_exec _ _ _ _ _ _ demo_ok R) as X. vm_compute in R. injection R as <- <-.
  exists 1%nat, 0%nat, (T 1100). split; [exact demo_ok|]. split; [now vm_compute|]. split; [exact X|]. split; [reflexivity|]. split; [now vm_compute|]. split; [reflexivity|]. split; [cbn; auto 20|]. split; [intros u; cbn; intuition discriminate|].
  intros (e & E1 & E2 & E3). cbn in E1. destruct E1 as [<-|E1]; [vm_compute in E3; discriminate|]. intuition (subst; try discriminate).
Qed.
(** Two events of one action at successive microsteps exchange their order: the order of
    the queue's array is that of its heap, the earlier event first. *)
Definition order_run : list op := [Schedule 0%nat (T 1500); Schedule 0%nat (mkTag 1500 1); Reorder [mkEv 1 (Some 0%nat) (T 1500); mkEv 2 (Some 0%nat) (mkTag 1500 1)]; Advance (T 1100); SetMode 0%nat 1%nat History; Advance (mkTag 1100 1); Advance (T 1200); SetMode 0%nat 0%nat History; Advance (T 1300)].
Theorem C38_order_refuted : exists p t0 st s es tr i j old new old' new' at_, program_ok p /\ 0 < t0 < FOREVER /\ exec p t0 st s es /\
  In (Resumes i tr old new at_) es /\ In (Resumes j tr old' new' at_) es /\ tag_lt old old' /\ tag_lt new' new.
Proof.
  exists demo, 1000, end_. destruct (start_run demo 1000 end_ order_run) as [[s es]|] eqn:R; [|vm_compute in R; discriminate].
  exists s, es. pose proof (start_exec _ _ _ _ _ _ demo_ok R) as X. vm_compute in R. injection R as <- <-.
  exists 0%nat, 1%nat, 2%nat, (T 1500), (mkTag 1600 1), (mkTag 1500 1), (T 1600), (T 1200). split; [exact demo_ok|]. split; [now vm_compute|]. split; [exact X|]. split; [cbn; auto 20|]. split; [cbn; auto 20|]. unfold tag_lt; cbn; lia.
Qed.

Print Assumptions C37_current.
Print Assumptions C37_active.
Print Assumptions C37_transition.
Print Assumptions C37_queue.
Print Assumptions C38_once.
Print Assumptions C38_delay_partial.
Print Assumptions C38_not_refused_partial.
Print Assumptions C38_resume_partial.
Print Assumptions C38_reset_partial.
Print Assumptions C38_nested_refuted.
Print Assumptions C38_delay_refuted.
Print Assumptions C38_history_drops_refuted.
Print Assumptions C38_oneshot_refuted.
Print Assumptions C38_self_reset_refuted.
Print Assumptions C38_order_refuted.
