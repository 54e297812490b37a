(** Proofs about watchdogs. *)
From Verif Require Import Base Tag Watchdog WatchdogSpec.

Definition fold (r : option Z) (es : list event) : option Z :=
  fold_left (fun r e => match e with Started x => Some x | Stopped | Fired _ _ | Terminated => None | HandlerDone => r end) es r.
Lemma request_app a b : request (a ++ b) = fold (request a) b.
Proof. unfold request, fold. apply fold_left_app. Qed.

Definition fires_ok (es : list event) : Prop := forall a e t b, es = a ++ Fired e t :: b -> request a = Some e /\ e <= t.

Lemma fires_app es es' : fires_ok es -> (forall a e t b, es' = a ++ Fired e t :: b -> fold (request es) a = Some e /\ e <= t) -> fires_ok (es ++ es').
Proof.
  intros A B a e t b E.
  assert ((exists d, es = a ++ Fired e t :: d) \/ (exists c, a = es ++ c /\ es' = c ++ Fired e t :: b)) as [(d & D)|(c & C1 & C2)].
  { clear A B. revert a E. induction es as [|x es IH]; intros a E; cbn in E.
    - right. exists a. auto.
    - destruct a as [|y a]; cbn in E.
      + injection E as -> E. left. exists es. reflexivity.
      + injection E as -> E. destruct (IH a E) as [(d & ->)|(c & -> & ->)]; [left; now exists d|right; now exists c]. }
  - apply (A a e t d D).
  - destruct (B c e t b C2) as (B1 & B2). split; [|exact B2]. subst a. rewrite request_app. exact B1.
Qed.

Record safe (s : state) (es : list event) : Prop := {
  s_exp : expiration s = NEVER \/ thr s = Handler \/ request es = Some (expiration s);
  s_fires : fires_ok es }.

Lemma wait_spec s s' es' : wait s = (s', es') ->
  expiration s' = expiration s /\ now s' = now s /\
  (es' = [] /\ thr s' <> Handler \/ es' = [Fired (expiration s) (now s)] /\ thr s' = Handler /\ expiration s <= now s /\ expiration s <> NEVER /\ terminate s = false).
Proof.
  unfold wait. destruct (expiration s =? NEVER) eqn:N; cbn [negb andb].
  - destruct (terminate s); intros H; injection H as <- <-; cbn; repeat split; left; split; auto; discriminate.
  - destruct (now s <? expiration s) eqn:L; cbn [andb].
    + destruct (terminate s); cbn [negb]; intros H; injection H as <- <-; cbn; repeat split; left; split; auto; discriminate.
    + destruct (terminate s); intros H; injection H as <- <-; cbn; repeat split; [left; split; auto; discriminate|right].
      apply Z.ltb_ge in L. apply Z.eqb_neq in N. auto.
Qed.
Lemma loop_spec s s' es' : loop s = (s', es') ->
  expiration s' = expiration s /\ now s' = now s /\
  (es' = [] /\ thr s' <> Handler \/ es' = [Fired (expiration s) (now s)] /\ thr s' = Handler /\ expiration s <= now s /\ expiration s <> NEVER /\ terminate s = false).
Proof.
  unfold loop. destruct (terminate s) eqn:T.
  - intros H. injection H as <- <-. cbn. repeat split. left. split; auto; discriminate.
  - destruct (expiration s =? NEVER) eqn:N; [|intros H; destruct (wait_spec _ _ _ H) as (W1 & W2 & W3); rewrite T in W3; auto].
    intros H. injection H as <- <-. cbn. repeat split. left. split; auto; discriminate.
Qed.

Lemma nofire es es' : fires_ok es -> (forall x, In x es' -> match x with Fired _ _ => False | _ => True end) -> fires_ok (es ++ es').
Proof. intros F N. apply fires_app; [exact F|]. intros a e t b E. exfalso. specialize (N (Fired e t)). rewrite E in N. apply N. apply in_or_app. right. now left. Qed.

Lemma run_safe s es s' es' : safe s es -> thr s <> Handler ->
  expiration s' = expiration s ->
  (es' = [] /\ thr s' <> Handler \/ es' = [Fired (expiration s) (now s)] /\ thr s' = Handler /\ expiration s <= now s /\ expiration s <> NEVER /\ terminate s = false) ->
  safe s' (es ++ es').
Proof.
  intros [A B] Nh Ee [(-> & Nh')|(-> & H' & L & Nn & _)].
  - rewrite app_nil_r. split; [|exact B]. rewrite Ee. tauto.
  - split; [now right; left|]. apply fires_app; [exact B|]. intros a e t b E.
    destruct a as [|y a]; [|destruct a; discriminate]. injection E as <- <- <-. cbn. destruct A as [A|[A|A]]; [contradiction|contradiction|auto].
Qed.

Lemma step_safe s es o s' es' : safe s es -> proper es o -> step s o = Done s' es' -> safe s' (es ++ es').
Proof.
  intros I P H. pose proof I as [A B]. destruct o as [t|c m x| | | | |c m x| | ]; cbn [step] in H.
  - injection H as <- <-. rewrite app_nil_r. split; auto.
  - destruct (free s) eqn:F; [|discriminate]. unfold start in H. destruct (_ && _); [|discriminate]. injection H as <- <-. split; cbn [expiration thr].
    + right. right. now rewrite request_app.
    + apply nofire; [exact B|]. now intros y [<-|[]].
  - destruct (free s) eqn:F; [|discriminate]. injection H as <- <-. split; [now left|]. apply nofire; [exact B|]. now intros y [<-|[]].
  - destruct (free s) eqn:F; [|discriminate]. injection H as <- <-. split; [now left|]. apply nofire; [exact B|]. now intros y [<-|[]].
  - destruct (thr s) as [|[|]|d b| |] eqn:T; try discriminate.
    + destruct (loop s) as [s1 e1] eqn:L. injection H as <- <-. destruct (loop_spec _ _ _ L) as (E1 & _ & E3). eapply run_safe; eauto. rewrite T. discriminate.
    + destruct (loop s) as [s1 e1] eqn:L. injection H as <- <-. destruct (loop_spec _ _ _ L) as (E1 & _ & E3). eapply run_safe; eauto. rewrite T. discriminate.
    + destruct (b || (d <=? now s)); [|discriminate]. destruct (wait s) as [s1 e1] eqn:L. injection H as <- <-. destruct (wait_spec _ _ _ L) as (E1 & _ & E3). eapply run_safe; eauto. rewrite T. discriminate.
  - destruct (thr s) as [|b|d b| |] eqn:T; try discriminate.
    + destruct (loop s) as [s1 e1] eqn:L. injection H as <- <-. destruct (loop_spec _ _ _ L) as (E1 & _ & E3). eapply run_safe; eauto. rewrite T. discriminate.
    + destruct (wait s) as [s1 e1] eqn:L. injection H as <- <-. destruct (wait_spec _ _ _ L) as (E1 & _ & E3). eapply run_safe; eauto. rewrite T. discriminate.
  - destruct (free s) eqn:F; [discriminate|]. unfold start in H. destruct (_ && _); [|discriminate]. injection H as <- <-. split; cbn [expiration thr].
    + right. right. now rewrite request_app.
    + apply nofire; [exact B|]. now intros y [<-|[]].
  - destruct (free s) eqn:F; [discriminate|]. injection H as <- <-. split; [now left|]. apply nofire; [exact B|]. now intros y [<-|[]].
  - destruct (free s) eqn:F; [discriminate|]. set (s0 := mkState NEVER (active s) (terminate s) (thr s) (now s)) in *. destruct (loop s0) as [s1 e1] eqn:L. cbn [fst snd] in H. injection H as <- <-.
    destruct (loop_spec _ _ _ L) as (E1 & _ & [(-> & E3)|(_ & _ & _ & E3 & _)]); [|now destruct E3].
    split; [left; exact E1|]. apply nofire; [exact B|]. now intros y [<-|[]].
Qed.

Lemma exec_safe t s es : exec proper (init t) s es -> safe s es.
Proof.
  intros X. induction X as [|s es o s' es' X IH P H]; [|eapply step_safe; eassumption].
  split; [now left|]. intros a e u b E. destruct a; discriminate.
Qed.

(** ** A request is not lost *)
Definition waits (s : state) (r : option Z) : Prop :=
  match thr s with
  | Ready => True
  | CondWait b => active s = false /\ (r <> None \/ terminate s = true -> b = true)
  | TimedWait d b => active s = true /\ (b = true \/ exists e, r = Some e /\ d <= e)
  | Handler => r = None
  | Dead => terminate s = true
  end.
Record live (s : state) (es : list event) : Prop := {
  l_exp : thr s <> Handler -> expiration s = match request es with Some e => e | None => NEVER end;
  l_never : request es <> Some NEVER;
  l_wait : waits s (request es);
  l_over : terminate s = true <-> over es;
  l_none : over es -> request es = None }.

Lemma over_app es es' : ~ In Terminated es' -> over (es ++ es') <-> over es.
Proof. intros N. unfold over. rewrite in_app_iff. tauto. Qed.

Lemma run_live (r : state * list event) s es : live s es -> thr s <> Handler -> thr s <> Dead -> r = wait s \/ r = loop s -> live (fst r) (es ++ snd r).
Proof.
  intros [A N W O Z] Nh Nd Hr. specialize (A Nh). assert (terminate s = true -> request es = None) as Zt by (intros; apply Z, O; assumption).
  assert (loop s = if terminate s then (mkState (expiration s) false (terminate s) Dead (now s), []) else if expiration s =? NEVER then (mkState (expiration s) false (terminate s) (CondWait false) (now s), []) else wait s) as EL by reflexivity.
  assert (wait s = loop s) as EE.
  { rewrite EL. unfold wait. destruct (terminate s); cbn [negb]; rewrite ?andb_false_r; [reflexivity|]. destruct (expiration s =? NEVER); reflexivity. }
  assert (r = loop s) as -> by (destruct Hr; congruence). rewrite EL.
  destruct (terminate s) eqn:T.
  - cbn [fst snd]. rewrite app_nil_r. split; cbn [expiration terminate thr]; auto; try exact O; try (split; auto).
  - destruct (request es) as [e|] eqn:R.
    + assert (expiration s =? NEVER = false) as Q by (apply Z.eqb_neq; congruence). rewrite Q. unfold wait. rewrite Q, T. cbn [negb andb]. rewrite andb_true_r.
      destruct (now s <? expiration s) eqn:L; cbn [fst snd].
      * rewrite app_nil_r. split; cbn [expiration terminate thr]; rewrite ?R; auto. unfold waits; cbn. split; [reflexivity|]. right. exists e. split; [reflexivity|lia].
      * split; cbn [expiration terminate thr]; rewrite ?request_app, ?R; cbn; try easy; auto. rewrite over_app by (cbn; intuition discriminate). exact O.
    + rewrite A. cbn [Z.eqb]. rewrite Z.eqb_refl. cbn [fst snd]. rewrite app_nil_r. split; cbn [expiration terminate thr]; rewrite ?R; auto. unfold waits; cbn. split; [reflexivity|]. intros [K|K]; [easy|discriminate].
Qed.

Lemma signal_other p : p <> Handler -> signal p <> Handler.
Proof. now destruct p. Qed.

Lemma step_live s es o s' es' : live s es -> feeding es o -> step s o = Done s' es' -> live s' (es ++ es').
Proof.
  intros I (P & F) H. pose proof I as [A N W O Z]. destruct o as [t|c m x| | | | |c m x| | ]; cbn [step] in H.
  - injection H as <- <-. rewrite app_nil_r. split; auto.
  - destruct (free s) eqn:Fr; [|discriminate]. assert (thr s <> Handler) as Nh by (intros E; unfold free in Fr; rewrite E in Fr; discriminate).
    unfold start in H. destruct (in_int64b (c + m) && in_int64b (c + m + x)) eqn:B; [|discriminate]. injection H as <- <-.
    destruct F as (Fo & Fe). destruct P as (P1 & P2 & P3).
    assert (terminate s = false) as T by (destruct (terminate s) eqn:T; [destruct Fo; now apply O|reflexivity]).
    split; cbn [expiration terminate thr]; rewrite ?request_app; cbn [fold fold_left].
    + reflexivity.
    + intros E. injection E as E. unfold in_int64, NEVER, LLONG_MIN in *. lia.
    + unfold waits in *; cbn [thr active terminate]. destruct (thr s) as [|b|d b| |] eqn:Th; cbn.
      * now destruct (active s).
      * destruct W as (W1 & W2). rewrite W1. cbn. split; [reflexivity|auto].
      * destruct W as (W1 & W2). rewrite W1. split; [reflexivity|]. destruct W2 as [W2|(e & W2 & W3)]; [now left|]. right. exists (c + m + x). rewrite W2 in Fe. split; [reflexivity|lia].
      * congruence.
      * congruence.
    + rewrite over_app by (cbn; intuition discriminate). split; [discriminate|intros K; now destruct Fo].
    + rewrite over_app by (cbn; intuition discriminate). now intros K; destruct Fo.
  - destruct (free s) eqn:Fr; [|discriminate]. assert (thr s <> Handler) as Nh by (intros E; unfold free in Fr; rewrite E in Fr; discriminate).
    injection H as <- <-. split; cbn [expiration terminate thr]; rewrite ?request_app; cbn [fold fold_left]; auto; try discriminate.
    + unfold waits in *; cbn [thr active terminate]. destruct (thr s) as [|b|d b| |] eqn:Th; cbn.
      * now destruct (active s).
      * destruct W as (W1 & W2). rewrite W1. cbn. split; [reflexivity|]. intros [K|K]; [easy|auto].
      * destruct W as (W1 & W2). rewrite W1. cbn. auto.
      * congruence.
      * destruct (active s); exact W.
    + rewrite over_app by (cbn; intuition discriminate). exact O.
  - destruct (free s) eqn:Fr; [|discriminate]. assert (thr s <> Handler) as Nh by (intros E; unfold free in Fr; rewrite E in Fr; discriminate).
    injection H as <- <-. split; cbn [expiration terminate thr]; rewrite ?request_app; cbn [fold fold_left]; auto; try discriminate.
    + unfold waits in *; cbn [thr active terminate]. destruct (thr s) as [|b|d b| |] eqn:Th; cbn; auto.
      * destruct W as (W1 & W2). auto.
      * destruct W as (W1 & W2). auto.
    + split; [intros _|auto]. unfold over. apply in_or_app. right. now left.
  - destruct (thr s) as [|[|]|d b| |] eqn:T; try discriminate.
    + injection H as <- <-. apply (run_live (loop s) s es I); rewrite ?T; auto; discriminate.
    + injection H as <- <-. apply (run_live (loop s) s es I); rewrite ?T; auto; discriminate.
    + destruct (b || (d <=? now s)); [|discriminate]. injection H as <- <-. apply (run_live (wait s) s es I); rewrite ?T; auto; discriminate.
  - destruct (thr s) as [|b|d b| |] eqn:T; try discriminate.
    + injection H as <- <-. apply (run_live (loop s) s es I); rewrite ?T; auto; discriminate.
    + injection H as <- <-. apply (run_live (wait s) s es I); rewrite ?T; auto; discriminate.
  - easy.
  - destruct (free s) eqn:Fr; [discriminate|]. injection H as <- <-. assert (thr s = Handler) as Th by (unfold free in Fr; now destruct (thr s)).
    split; cbn [expiration terminate thr]; rewrite ?request_app; cbn [fold fold_left]; auto; try discriminate.
    + unfold waits; cbn [thr active]. rewrite Th. now destruct (active s).
    + rewrite over_app by (cbn; intuition discriminate). exact O.
  - destruct (free s) eqn:Fr; [discriminate|]. assert (thr s = Handler) as Th by (unfold free in Fr; now destruct (thr s)).
    unfold waits in W. rewrite Th in W. unfold loop in H. cbn [terminate expiration now] in H. rewrite Z.eqb_refl in H. destruct (terminate s) eqn:T; cbn [fst snd] in H; injection H as <- <-;
    (split; cbn [expiration terminate thr]; rewrite ?request_app; cbn [fold fold_left]; rewrite ?W; auto; try discriminate; try (rewrite over_app by (cbn; intuition discriminate); exact O); try reflexivity; try (unfold waits; cbn [thr active terminate]; auto; split; [reflexivity|intros [K|K]; [now destruct K|discriminate]])).
Qed.

Lemma exec_live t s es : exec feeding (init t) s es -> live s es.
Proof.
  intros X. induction X as [|s es o s' es' X IH P H]; [|eapply step_live; eassumption].
  split; cbn; auto; try easy. 
Qed.
