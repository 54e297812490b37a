From Verif Require Import Base Trace TraceSpec TraceProps ThreadStart ThreadStartSpec.
Local Open Scope nat_scope.

Lemma thread_eqb_eq a b : thread_eqb a b = true <-> a = b.
Proof.
  destruct a, b; cbn; rewrite ?andb_true_iff, ?Nat.eqb_eq; split; intros H; try discriminate; try reflexivity;
    try (now destruct H; subst); try (now injection H; auto); now subst.
Qed.
Lemma thread_eqb_refl a : thread_eqb a a = true.
Proof. now apply thread_eqb_eq. Qed.
Lemma thread_eqb_neq a b : a <> b -> thread_eqb a b = false.
Proof. intros H. destruct (thread_eqb a b) eqn:E; [|reflexivity]. apply thread_eqb_eq in E. contradiction. Qed.
Lemma existsb_in t l : existsb (thread_eqb t) l = true <-> In t l.
Proof.
  rewrite existsb_exists. split; [intros (x & A & B)|intros A].
  - apply thread_eqb_eq in B. now subst.
  - exists t. split; [exact A|apply thread_eqb_refl].
Qed.
Lemma existsb_out t l : existsb (thread_eqb t) l = false <-> ~ In t l.
Proof. rewrite <- existsb_in. destruct (existsb (thread_eqb t) l); split; congruence. Qed.

Lemma position_in t l : In t l -> exists i, position t l = Some i /\ i < length l /\ nth_error l i = Some t.
Proof.
  induction l as [|u l IH]; intros H; [destruct H|]. cbn [position length].
  destruct (thread_eqb u t) eqn:Q.
  - apply thread_eqb_eq in Q. subst. exists 0. repeat split. lia.
  - destruct H as [->|H]; [rewrite thread_eqb_refl in Q; discriminate|]. destruct (IH H) as (i & -> & L & N).
    exists (S i). cbn. repeat split; [lia|exact N].
Qed.
Lemma position_out t l : ~ In t l -> position t l = None.
Proof.
  induction l as [|u l IH]; intros H; [reflexivity|]. cbn [position].
  rewrite thread_eqb_neq by (intros ->; apply H; now left). rewrite IH; [reflexivity|]. intros X. apply H. now right.
Qed.
Lemma position_snoc t l u : In t l -> position t (l ++ [u]) = position t l.
Proof.
  induction l as [|v l IH]; intros H; [destruct H|]. cbn [position app]. destruct (thread_eqb v t) eqn:Q; [reflexivity|].
  destruct H as [->|H]; [rewrite thread_eqb_refl in Q; discriminate|]. now rewrite IH.
Qed.
Lemma position_last t l : ~ In t l -> position t (l ++ [t]) = Some (length l).
Proof.
  induction l as [|v l IH]; intros H; cbn [position app length]; [now rewrite thread_eqb_refl|].
  rewrite thread_eqb_neq by (intros ->; apply H; now left). rewrite IH; [reflexivity|]. intros X. apply H. now right.
Qed.

Lemma recorded_app t a b : recorded t (a ++ b) = recorded t a ++ recorded t b.
Proof. induction a as [|[u|u r o] a IH]; cbn [recorded app]; auto. destruct (thread_eqb u t); rewrite IH; reflexivity. Qed.
Lemma outside_app ths a b : recorded_outside ths (a ++ b) = recorded_outside ths a ++ recorded_outside ths b.
Proof. induction a as [|[u|u r o] a IH]; cbn [recorded_outside app]; auto. destruct (existsb (thread_eqb u) ths); rewrite IH; reflexivity. Qed.

(** * Every thread has its own place *)
Record inv (ths : list thread) (n : nat) (h : list op) (s : state) : Prop := {
  i_nodup : NoDup (begun s);
  i_incl : incl (begun s) ths;
  i_good : good (tr s);
  i_n : n_buffers (tr s) = Z.of_nat n;
  i_own : forall t, In t (begun s) -> content (tr s) (lf_thread_id s t) = recorded t h;
  i_none : forall t, In t ths -> ~ In t (begun s) -> recorded t h = [];
  i_free : forall i, length (begun s) <= i -> content (tr s) (Z.of_nat i) = [];
  i_out : content (tr s) (-1) = recorded_outside ths h }.

Lemma inv_start ths n : inv ths n [] (start n).
Proof.
  split; cbn; auto; try (now constructor); try easy.
  - split; [reflexivity|]. split; [reflexivity|]. intros w. cbn. lia.
Qed.

Lemma id_in s t : In t (begun s) -> exists i, lf_thread_id s t = Z.of_nat i /\ i < length (begun s) /\ nth_error (begun s) i = Some t.
Proof. intros H. unfold lf_thread_id. destruct (position_in _ _ H) as (i & -> & A & B). eauto. Qed.
Lemma id_inj s t u : In t (begun s) -> In u (begun s) -> lf_thread_id s t = lf_thread_id s u -> t = u.
Proof. intros A B. destruct (id_in _ _ A) as (i & -> & _ & N). destruct (id_in _ _ B) as (j & -> & _ & M). intros H. apply Nat2Z.inj in H. subst. congruence. Qed.

Lemma inv_begin ths n h s t : inv ths n h s -> may_begin ths s t = true ->
  inv ths n (h ++ [Begin t]) (mkState (begun s ++ [t]) (tr s)).
Proof.
  intros [A B C D F G K L] M. unfold may_begin in M. rewrite !andb_true_iff, negb_true_iff in M. destruct M as [[M1 M2] _].
  rewrite existsb_in in M1. rewrite existsb_out in M2.
  assert (R : forall u, recorded u (h ++ [Begin t]) = recorded u h) by (intros u; rewrite recorded_app; cbn; apply app_nil_r).
  split; cbn [begun tr].
  - apply NoDup_rev in A. rewrite <- (rev_involutive (begun s ++ [t])), rev_app_distr. apply NoDup_rev. cbn. constructor; [|exact A]. now rewrite <- in_rev.
  - intros x. rewrite in_app_iff. intros [X|[<-|[]]]; auto.
  - exact C.
  - exact D.
  - intros u. rewrite in_app_iff. intros [X|[<-|[]]]; rewrite R.
    + rewrite <- (F u X). unfold lf_thread_id. cbn [begun]. now rewrite position_snoc.
    + rewrite (G t M1 M2). unfold lf_thread_id. cbn [begun]. rewrite position_last by exact M2. now apply K.
  - intros u X Y. rewrite R. apply G; [exact X|]. intros Z0. apply Y. rewrite in_app_iff. now left.
  - intros i X. rewrite app_length in X. cbn [length] in X. apply K. lia.
  - rewrite outside_app. cbn. rewrite app_nil_r. exact L.
Qed.

Lemma inv_event ths n h s t r : inv ths n h s -> length ths <= n ->
  existsb (thread_eqb t) ths && negb (existsb (thread_eqb t) (begun s)) = false ->
  exists t', tracepoint (tr s) (lf_thread_id s t) r IoOk = Trace.Go t' /\ inv ths n (h ++ [Event t r IoOk]) (mkState (begun s) t').
Proof.
  intros [A B C D F G K L] W M.
  assert (Len : length (begun s) <= length ths) by now apply NoDup_incl_length.
  assert (T : (In t (begun s) /\ existsb (thread_eqb t) ths = true) \/ (~ In t (begun s) /\ existsb (thread_eqb t) ths = false /\ lf_thread_id s t = (-1)%Z)).
  { destruct (existsb (thread_eqb t) (begun s)) eqn:Q.
    - left. apply existsb_in in Q. split; [exact Q|]. apply existsb_in. auto.
    - right. rewrite andb_true_r in M. apply existsb_out in Q. split; [exact Q|]. split; [exact M|]. unfold lf_thread_id. now rewrite position_out. }
  assert (Rg : (-1 <= lf_thread_id s t < n_buffers (tr s))%Z).
  { rewrite D. destruct T as [[X _]|(_ & _ & ->)]; [|lia]. destruct (id_in _ _ X) as (i & -> & Y & _). lia. }
  destruct (tracepoint_good (tr s) (lf_thread_id s t) r C Rg) as (t' & E1 & G' & N' & C1 & C2).
  exists t'. split; [exact E1|].
  assert (Id : forall u, lf_thread_id (mkState (begun s) t') u = lf_thread_id s u) by reflexivity.
  split; cbn [begun tr]; auto.
  - now rewrite N'.
  - intros u X. rewrite Id, recorded_app. cbn [recorded]. destruct (thread_eqb t u) eqn:Q.
    + apply thread_eqb_eq in Q. subst u. now rewrite C1, (F t X).
    + rewrite app_nil_r, C2; [now apply F|]. intros Y. destruct T as [[Z0 _]|(_ & _ & Z0)].
      * apply (id_inj s u t X Z0) in Y. subst. rewrite thread_eqb_refl in Q. discriminate.
      * rewrite Z0 in Y. destruct (id_in _ _ X) as (i & Z1 & _). lia.
  - intros u X Y. rewrite recorded_app, (G u X Y). cbn [recorded app]. destruct (thread_eqb t u) eqn:Q; [|reflexivity].
    apply thread_eqb_eq in Q. subst u. exfalso. destruct T as [[Z0 _]|(_ & Z0 & _)]; [contradiction|]. rewrite existsb_out in Z0. contradiction.
  - intros i X. rewrite C2; [now apply K|]. intros Y. destruct T as [[Z0 _]|(_ & _ & Z0)].
    + destruct (id_in _ _ Z0) as (j & Z1 & Z2 & _). lia.
    + lia.
  - rewrite outside_app. cbn [recorded_outside]. destruct T as [[Z0 Z1]|(_ & Z1 & Z0)]; rewrite Z1.
    + rewrite app_nil_r, C2; [exact L|]. destruct (id_in _ _ Z0) as (j & -> & _). lia.
    + rewrite <- Z0, C1, Z0, L. reflexivity.
Qed.

Lemma run_inv ths n l : length ths <= n -> file_works l -> forall h s, inv ths n h s ->
  match run ths s l with Went s' => inv ths n (h ++ l) s' | Impossible => True | _ => False end.
Proof.
  intros W. induction l as [|x l IH]; intros Fw h s V; cbn [run]; [now rewrite app_nil_r|].
  inversion Fw as [|? ? F1 F2]; subst. replace (h ++ x :: l) with ((h ++ [x]) ++ l) by now rewrite <- app_assoc.
  destruct x as [t|t r o]; cbn [step].
  - destruct (may_begin ths s t) eqn:M; [|exact Logic.I]. apply IH; [exact F2|]. now apply inv_begin.
  - subst o. destruct (existsb (thread_eqb t) ths && negb (existsb (thread_eqb t) (begun s))) eqn:M; [exact Logic.I|].
    destruct (inv_event ths n h s t r V W M) as (t' & -> & V'). now apply IH.
Qed.

Theorem places ths n l : length ths <= n -> file_works l ->
  match run ths (start n) l with
  | Went s =>
      (forall t u, In t (begun s) -> In u (begun s) -> lf_thread_id s t = lf_thread_id s u -> t = u)
      /\ (forall t, In t (begun s) -> in_file (lf_thread_id s t) (written (stop (tr s) (fun _ => IoOk))) = recorded t l)
      /\ in_file (-1) (written (stop (tr s) (fun _ => IoOk))) = recorded_outside ths l
  | Impossible => True
  | Exited | OutOfBounds => False
  end.
Proof.
  intros W Fw. pose proof (run_inv ths n l W Fw [] (start n) (inv_start ths n)) as V. cbn [app] in V.
  destruct (run ths (start n) l) as [s| | |]; auto. destruct V as [A B C D F G K L].
  assert (Len : length (begun s) <= length ths) by now apply NoDup_incl_length.
  split; [|split].
  - intros t u. apply id_inj.
  - intros t X. rewrite stop_good; auto. rewrite D. destruct (id_in _ _ X) as (i & -> & Y & _). lia.
  - rewrite stop_good; auto. rewrite D. lia.
Qed.

(** * Too many threads *)
Lemma begin_all ths l : forall s, NoDup (begun s ++ l) -> incl l ths -> (begun s = [] -> exists l', l = Main :: l') ->
  run ths s (map Begin l) = Went (mkState (begun s ++ l) (tr s)).
Proof.
  induction l as [|t l IH]; intros s N Inc M; cbn [map run]; [rewrite app_nil_r; now destruct s|].
  cbn [step]. replace (may_begin ths s t) with true.
  - rewrite IH; cbn [begun tr].
    + now rewrite <- app_assoc.
    + now rewrite <- app_assoc.
    + intros x X. apply Inc. now right.
    + intros X. destruct (begun s); discriminate X.
  - symmetry. unfold may_begin. rewrite !andb_true_iff, negb_true_iff, existsb_in, existsb_out. split; [split|].
    + apply Inc. now left.
    + apply NoDup_remove_2 in N. intros X. apply N. rewrite in_app_iff. now left.
    + destruct (begun s) eqn:Q; [|reflexivity]. destruct (M eq_refl) as (l' & Y). injection Y as -> _. reflexivity.
Qed.

Lemma run_app ths a : forall b s, run ths s (a ++ b) = match run ths s a with Went s' => run ths s' b | y => y end.
Proof. induction a as [|x a IH]; intros b s; cbn [run app]; [reflexivity|]. destruct (step ths s x); auto. Qed.

(** In a program with too many threads any chosen thread [w] can get the first identifier without a buffer. *)
Lemma too_many rest n w r : NoDup (Main :: rest) -> In w rest -> 1 <= n -> n < length (Main :: rest) ->
  exists order, NoDup (Main :: order ++ [w]) /\ incl (Main :: order ++ [w]) (Main :: rest) /\
    run (Main :: rest) (start n) (map Begin (Main :: order ++ [w]) ++ [Event w r IoOk]) = OutOfBounds.
Proof.
  intros N H L1 L2. destruct (in_split _ _ H) as (a & b & ->).
  set (order := firstn (n - 1) (a ++ b)).
  assert (Lo : length order = n - 1).
  { unfold order. rewrite firstn_length. cbn [length] in L2. rewrite app_length in L2. cbn [length] in L2. rewrite app_length. lia. }
  assert (Ino : incl order (a ++ b)).
  { intros x X. unfold order in X. rewrite <- (firstn_skipn (n - 1) (a ++ b)). rewrite in_app_iff. now left. }
  assert (Nab : NoDup (a ++ b) /\ ~ In w (a ++ b) /\ ~ In Main (a ++ b) /\ w <> Main).
  { inversion N as [|? ? N1 N2]; subst. split; [eapply NoDup_remove_1; eassumption|]. split; [eapply NoDup_remove_2; eassumption|].
    rewrite in_app_iff in N1. cbn in N1. split; [rewrite in_app_iff; tauto|]. intros ->. tauto. }
  destruct Nab as (Nab & Nw & Nm & Wm).
  assert (No : NoDup order).
  { unfold order. rewrite <- (firstn_skipn (n - 1) (a ++ b)) in Nab. clear - Nab. revert Nab. generalize (firstn (n - 1) (a ++ b)) (skipn (n - 1) (a ++ b)).
    intros l1 l2. induction l1 as [|x l1 IH]; intros Y; [constructor|]. cbn in Y. inversion Y; subst. constructor; auto. rewrite in_app_iff in *. tauto. }
  assert (ND : NoDup (Main :: order ++ [w])).
  { constructor.
    - rewrite in_app_iff. cbn. intros [X|[X|[]]]; [apply Nm, Ino, X|now apply Wm].
    - rewrite <- (rev_involutive (order ++ [w])), rev_app_distr. apply NoDup_rev. cbn. constructor; [rewrite <- in_rev; intros X; apply Nw, Ino, X|now apply NoDup_rev]. }
  assert (IC : incl (Main :: order ++ [w]) (Main :: a ++ w :: b)).
  { intros x [<-|X]; [now left|]. right. rewrite in_app_iff in X. destruct X as [X|[<-|[]]]; [apply Ino in X|]; rewrite in_app_iff in *; cbn; tauto. }
  exists order. split; [exact ND|]. split; [exact IC|].
  rewrite run_app, begin_all; [|exact ND|exact IC|eauto]. cbn [begun tr start app]. cbn [run step begun tr].
  replace (existsb (thread_eqb w) (Main :: order ++ [w])) with true
    by (symmetry; apply existsb_in; right; rewrite in_app_iff; right; now left).
  cbn [negb]. rewrite andb_false_r. cbn match.
  assert (Id : lf_thread_id (mkState (Main :: order ++ [w]) (trace0 (Z.of_nat n) true)) w = Z.of_nat n).
  { unfold lf_thread_id. cbn [begun]. change (Main :: order ++ [w]) with ((Main :: order) ++ [w]). rewrite position_last.
    - cbn [length]. rewrite Lo. f_equal. lia.
    - intros [X|X]; [now apply Wm|apply Nw, Ino, X]. }
  rewrite Id. destruct (C54_tid_refuted (Z.of_nat n) r IoOk) as [-> _]; [lia|reflexivity].
Qed.

Lemma works_begin order w r : file_works (map Begin order ++ [Event w r IoOk]).
Proof. apply Forall_app. split; [|now repeat constructor]. apply Forall_forall. intros x X. apply in_map_iff in X. destruct X as (t & <- & _). exact Logic.I. Qed.

Theorem exact rest n : NoDup (Main :: rest) -> rest <> [] -> 1 <= n -> (breaks (Main :: rest) n <-> n < length (Main :: rest)).
Proof.
  intros N R L. split.
  - intros (l & Fw & Br). destruct (le_lt_dec (length (Main :: rest)) n) as [X|X]; [|exact X]. exfalso.
    pose proof (places (Main :: rest) n l X Fw) as P. destruct Br as [Br|Br]; rewrite Br in P; exact P.
  - intros X. destruct rest as [|w rest]; [contradiction|].
    destruct (too_many (w :: rest) n w 0%Z N (or_introl eq_refl) L X) as (order & _ & _ & Y).
    eexists. split; [|left; exact Y]. apply works_begin.
Qed.

(** * The threads of a program *)
Lemma in_workers e w t : In t (workers_of e w) <-> exists j, t = Worker e j /\ j < w.
Proof.
  unfold workers_of. rewrite in_map_iff. split.
  - intros (j & <- & H). apply in_seq in H. exists j. split; [reflexivity|lia].
  - intros (j & -> & H). exists j. split; [reflexivity|]. apply in_seq. lia.
Qed.
Lemma in_watchdogs e w t : In t (watchdogs_of e w) <-> exists j, t = Watchdog e j /\ j < w.
Proof.
  unfold watchdogs_of. rewrite in_map_iff. split.
  - intros (j & <- & H). apply in_seq in H. exists j. split; [reflexivity|lia].
  - intros (j & -> & H). exists j. split; [reflexivity|]. apply in_seq. lia.
Qed.
Lemma nodup_map {A} (f : nat -> A) k n : (forall i j, f i = f j -> i = j) -> NoDup (map f (seq k n)).
Proof.
  intros H. revert k. induction n as [|n IH]; intros k; cbn; [constructor|]. constructor; [|apply IH].
  rewrite in_map_iff. intros (j & X1 & X2). apply H in X1. apply in_seq in X2. lia.
Qed.
Lemma nodup_app {A} (a b : list A) : NoDup a -> NoDup b -> (forall x, In x a -> ~ In x b) -> NoDup (a ++ b).
Proof.
  induction a as [|x a IH]; intros N M D; [exact M|]. inversion N; subst. cbn. constructor.
  - rewrite in_app_iff. intros [X|X]; [contradiction|]. apply (D x); [now left|exact X].
  - apply IH; auto. intros y Y. apply D. now right.
Qed.

Lemma in_env l : forall e t, In t (env_threads e l) ->
  (exists f j, t = Worker f j /\ e <= f) \/ (exists f j, t = Watchdog f j /\ e <= f).
Proof.
  induction l as [|(w, d) l IH]; intros e t H; cbn in H; [destruct H|]. rewrite !in_app_iff, in_workers, in_watchdogs in H.
  destruct H as [(j & -> & _)|[(j & -> & _)|H]]; [right; eauto|left; eauto|].
  destruct (IH _ _ H) as [(f & j & -> & X)|(f & j & -> & X)]; [left|right]; exists f, j; (split; [reflexivity|lia]).
Qed.
Lemma env_nodup l : forall e, NoDup (env_threads e l).
Proof.
  induction l as [|(w, d) l IH]; intros e; cbn; [constructor|].
  apply nodup_app; [apply nodup_map; intros ? ? [= ->]; reflexivity| |].
  - apply nodup_app; [apply nodup_map; intros ? ? [= ->]; reflexivity|apply IH|].
    intros x X Y. apply in_workers in X. destruct X as (j & -> & _).
    destruct (in_env _ _ _ Y) as [(f & k & Q & Z0)|(f & k & Q & Z0)]; [injection Q; intros; lia|discriminate Q].
  - intros x X Y. apply in_watchdogs in X. destruct X as (j & -> & _). rewrite in_app_iff, in_workers in Y.
    destruct Y as [(k & Q & _)|Y]; [discriminate Q|].
    destruct (in_env _ _ _ Y) as [(f & k & Q & Z0)|(f & k & Q & Z0)]; [discriminate Q|injection Q; intros; lia].
Qed.
Lemma fed_nodup f : NoDup (fed_threads f).
Proof.
  unfold fed_threads. apply nodup_app; [apply nodup_map; intros ? ? [= ->]; reflexivity| |].
  - destruct (staa f), (clock f); cbn; repeat constructor; cbn; intuition discriminate.
  - intros x X Y. apply in_map_iff in X. destruct X as (i & <- & _). destruct (staa f), (clock f); cbn in Y; intuition discriminate.
Qed.
Lemma in_fed f t : In t (fed_threads f) -> (exists i, t = Inbound i) \/ t = RtiListener \/ t = Staa \/ t = ClockListener.
Proof.
  unfold fed_threads. rewrite in_app_iff, in_map_iff. intros [(i & <- & _)|[<-|X]]; [eauto|auto|].
  rewrite in_app_iff in X. destruct (staa f), (clock f); cbn in X; intuition.
Qed.
Lemma threads_nodup p : NoDup (threads p).
Proof.
  unfold threads. constructor.
  - rewrite in_app_iff. intros [X|X]; [destruct (in_env _ _ _ X) as [(f & j & Q & _)|(f & j & Q & _)]; discriminate Q|].
    destruct (fed p) as [f|]; [|destruct X]. destruct (in_fed _ _ X) as [(i & Q)|[Q|[Q|Q]]]; discriminate Q.
  - apply nodup_app; [apply env_nodup|destruct (fed p); [apply fed_nodup|constructor]|].
    intros x X Y. destruct (fed p) as [f|]; [|destruct Y].
    destruct (in_env _ _ _ X) as [(e & j & -> & _)|(e & j & -> & _)]; destruct (in_fed _ _ Y) as [(i & Q)|[Q|[Q|Q]]]; discriminate Q.
Qed.
Lemma env_length l : forall e, length (env_threads e l) = sum (map fst l) + sum (map snd l).
Proof.
  induction l as [|(w, d) l IH]; intros e; cbn; [reflexivity|]. unfold watchdogs_of, workers_of.
  rewrite !app_length, !map_length, !seq_length, IH. unfold sum. lia.
Qed.
Lemma threads_length p : length (threads p) = 1 + total_workers p + total_watchdogs p + match fed p with Some f => extra f | None => 0 end.
Proof.
  unfold threads. cbn [length]. rewrite app_length, env_length. unfold total_workers, total_watchdogs.
  assert (X : length match fed p with Some f => fed_threads f | None => [] end = match fed p with Some f => extra f | None => 0 end).
  { destruct (fed p) as [f|]; [|reflexivity]. unfold fed_threads, extra. rewrite app_length, map_length, seq_length. cbn [length].
    rewrite app_length. destruct (staa f), (clock f); cbn; lia. }
  rewrite X. lia.
Qed.
Lemma sum_bound k l : Forall (fun x => x <= k) l -> sum l <= k * length l.
Proof. induction 1 as [|x l A B IH]; cbn; unfold sum in *; lia. Qed.
Lemma plain_fits p : plain p -> length (threads p) <= buffers_for p.
Proof.
  intros (A & B & C). rewrite threads_length, A. unfold buffers_for. fold (first_workers p).
  assert (S1 : total_workers p <= first_workers p * length (envs p)).
  { unfold total_workers. rewrite <- (map_length fst (envs p)). apply sum_bound. apply Forall_forall. intros x X. apply in_map_iff in X.
    destruct X as (y & <- & Y). rewrite Forall_forall in B. now apply B. }
  destruct (fed p) as [f|]; [|lia]. unfold extra. destruct (staa f), (clock f); lia.
Qed.
Lemma worker_thread_from l : forall e0 e j w d, nth_error l e = Some (w, d) -> j < w -> In (Worker (e0 + e) j) (env_threads e0 l).
Proof.
  induction l as [|(w', d') l IH]; intros e0 e j w d H L; [now destruct e|]. cbn [env_threads]. rewrite !in_app_iff. destruct e as [|e].
  - cbn in H. injection H as -> _. right. left. apply in_workers. exists j. split; [f_equal; lia|exact L].
  - right. right. replace (e0 + S e) with (S e0 + e) by lia. eapply IH; eassumption.
Qed.
Lemma is_worker_thread p t : is_worker p t -> In t (env_threads 0 (envs p) ++ match fed p with Some f => fed_threads f | None => [] end).
Proof. intros (e & j & w & d & -> & A & B). rewrite in_app_iff. left. change e with (0 + e). eapply worker_thread_from; eassumption. Qed.
Lemma rti_nodup n : NoDup (rti_threads n).
Proof.
  unfold rti_threads. constructor.
  - rewrite in_app_iff, in_map_iff. intros [(i & Q & _)|X]; [discriminate Q|cbn in X; intuition discriminate].
  - apply nodup_app; [apply nodup_map; intros ? ? [= ->]; reflexivity|repeat constructor; cbn; intuition discriminate|].
    intros x X Y. apply in_map_iff in X. destruct X as (i & <- & _). cbn in Y. intuition discriminate.
Qed.
Lemma rti_length n : length (rti_threads n) = n + 4.
Proof. unfold rti_threads. cbn [length]. rewrite app_length, map_length, seq_length. cbn. lia. Qed.

(** * Creation *)
Lemma in_all_workers l : forall e0 t, In t (all_workers e0 l) <-> exists e j w d, t = Worker (e0 + e) j /\ nth_error l e = Some (w, d) /\ j < w.
Proof.
  induction l as [|(w, d) l IH]; intros e0 t; cbn [all_workers].
  - split; [intros []|intros (e & j & w & d & _ & X & _); now destruct e].
  - rewrite in_app_iff, in_workers, IH. split.
    + intros [(j & -> & L)|(e & j & w' & d' & -> & X & L)].
      * exists 0, j, w, d. split; [f_equal; lia|]. split; [reflexivity|exact L].
      * exists (S e), j, w', d'. split; [f_equal; lia|]. split; [exact X|exact L].
    + intros (e & j & w' & d' & -> & X & L). destruct e as [|e].
      * cbn in X. injection X as <- <-. left. exists j. split; [f_equal; lia|exact L].
      * right. exists e, j, w', d'. split; [f_equal; lia|]. split; [exact X|exact L].
Qed.
Lemma in_ws p t : In t (all_workers 0 (envs p)) <-> is_worker p t.
Proof. rewrite in_all_workers. reflexivity. Qed.
Lemma ws_nodup l : forall e, NoDup (all_workers e l).
Proof.
  induction l as [|(w, d) l IH]; intros e; cbn; [constructor|].
  apply nodup_app; [apply nodup_map; intros ? ? [= ->]; reflexivity|apply IH|].
  intros x X Y. apply in_workers in X. destruct X as (j & -> & _). apply in_all_workers in Y. destruct Y as (f & k & ? & ? & Q & _).
  injection Q; intros; lia.
Qed.
Lemma is00 t : t = Worker 0 0 \/ t <> Worker 0 0.
Proof. destruct (thread_eqb t (Worker 0 0)) eqn:Q; [left; now apply thread_eqb_eq|right; intros ->; discriminate]. Qed.
Lemma spawn_cons ok t l : t <> Worker 0 0 ->
  spawn ok (t :: l) = if ok t then let (a, b) := spawn ok l in (Create t :: a, b) else ([Failed t], false).
Proof. intros H. destruct t as [|[|e] [|j]| | | | | | | | | |]; try reflexivity. now destruct H. Qed.
Lemma spawn_ok ok l : (forall t, In t l -> t <> Worker 0 0 -> ok t = true) ->
  spawn ok l = (map Create (filter (fun t => negb (thread_eqb t (Worker 0 0))) l), true).
Proof.
  induction l as [|t l IH]; intros H; [reflexivity|]. destruct (is00 t) as [->|N].
  - cbn [spawn filter thread_eqb Nat.eqb andb negb]. apply IH. intros u U. apply H. now right.
  - rewrite spawn_cons by exact N. rewrite H by (auto; now left). rewrite IH by (intros u U; apply H; now right).
    cbn [filter]. rewrite thread_eqb_neq by exact N. reflexivity.
Qed.
Lemma join_is l : join_all l = map Join (filter (fun t => negb (thread_eqb t (Worker 0 0))) l).
Proof.
  induction l as [|t l IH]; [reflexivity|]. unfold join_all in *. cbn [flat_map filter]. rewrite IH. destruct (is00 t) as [->|N]; [reflexivity|].
  rewrite thread_eqb_neq by exact N. destruct t as [|[|e] [|j]| | | | | | | | | |]; try reflexivity. now destruct N.
Qed.
Lemma spawn_fails ok l t : In t l -> t <> Worker 0 0 -> ok t = false ->
  exists a u, spawn ok l = (map Create a ++ [Failed u], false) /\ ok u = false /\ In u l.
Proof.
  induction l as [|v l IH]; intros H N K; [destruct H|]. destruct (is00 v) as [->|M].
  - cbn [spawn]. destruct H as [<-|H]; [now destruct N|]. destruct (IH H N K) as (a & u & -> & B & C). exists a, u. repeat split; auto. now right.
  - rewrite spawn_cons by exact M. destruct (ok v) eqn:Q.
    + destruct H as [->|H]; [congruence|]. destruct (IH H N K) as (a & u & -> & B & C). exists (v :: a), u. repeat split; auto. now right.
    + exists [], v. repeat split; auto. now left.
Qed.

Lemma in_others l t : In t (filter (fun t => negb (thread_eqb t (Worker 0 0))) l) <-> In t l /\ t <> Worker 0 0.
Proof.
  rewrite filter_In, negb_true_iff. split; intros [A B]; (split; [exact A|]).
  - intros ->. discriminate B.
  - now apply thread_eqb_neq.
Qed.
Lemma nodup_map_inj {A B} (f : A -> B) l : (forall x y, f x = f y -> x = y) -> NoDup l -> NoDup (map f l).
Proof. intros H. induction 1 as [|x l A1 A2 IH]; cbn; constructor; auto. rewrite in_map_iff. intros (y & X & Y). apply H in X. now subst. Qed.

Lemma worker00 p : is_worker p (Worker 0 0) <-> exists w d l, envs p = (S w, d) :: l.
Proof.
  split.
  - intros (e & j & w & d & Q & A & B). injection Q as <- <-. destruct (envs p) as [|(w', d') l]; [discriminate A|]. cbn in A. injection A as -> ->.
    destruct w as [|w]; [lia|]. eauto.
  - intros (w & d & l & Q). exists 0, 0, (S w), d. rewrite Q. repeat split. lia.
Qed.

Theorem once ok p : (forall t, is_worker p t -> ok t = true) ->
  let a := main_actions ok p in
  NoDup a
  /\ (forall t, In (Create t) a <-> is_worker p t /\ t <> Worker 0 0)
  /\ (forall t, In (RunHere t) a <-> is_worker p t /\ t = Worker 0 0)
  /\ (forall t, In (Join t) a <-> is_worker p t /\ t <> Worker 0 0)
  /\ (forall t, ~ In (Failed t) a)
  /\ (forall a1 t a2, a = a1 ++ Join t :: a2 -> forall u, is_worker p u -> In (Create u) a1 \/ In (RunHere u) a1)
  /\ exists a1, a = a1 ++ [Return].
Proof.
  intros H. cbn zeta. unfold main_actions. rewrite spawn_ok by (intros t A _; apply H; now apply in_ws). cbn match. rewrite join_is.
  set (ot := filter (fun t => negb (thread_eqb t (Worker 0 0))) (all_workers 0 (envs p))).
  assert (Ot : forall t, In t ot <-> is_worker p t /\ t <> Worker 0 0) by (intros t; unfold ot; rewrite in_others, in_ws; reflexivity).
  assert (No : NoDup ot) by (apply NoDup_filter, ws_nodup). clearbody ot.
  set (r := match envs p with (S _, _) :: _ => [RunHere (Worker 0 0)] | _ => [] end).
  assert (Rr : (is_worker p (Worker 0 0) /\ r = [RunHere (Worker 0 0)]) \/ (~ is_worker p (Worker 0 0) /\ r = [])).
  { rewrite worker00. unfold r. destruct (envs p) as [|([|w], d) l]; [right|right|left]; (split; [|reflexivity]); try (intros (? & ? & ? & X); discriminate X). eauto. }
  clearbody r.
  assert (InR : forall x, In x r <-> x = RunHere (Worker 0 0) /\ is_worker p (Worker 0 0)).
  { intros x. destruct Rr as [[A ->]|[A ->]]; cbn; intuition. }
  assert (C : forall t l, In (Create t) (map Create l) <-> In t l).
  { intros t l. rewrite in_map_iff. split; [intros (u & [= ->] & X); exact X|intros X; eauto]. }
  assert (J : forall t l, In (Join t) (map Join l) <-> In t l).
  { intros t l. rewrite in_map_iff. split; [intros (u & [= ->] & X); exact X|intros X; eauto]. }
  assert (CM : forall x l, In x (map Create l) -> exists t, x = Create t) by (intros x l X; apply in_map_iff in X; destruct X as (t & <- & _); eauto).
  assert (JM : forall x l, In x (map Join l) -> exists t, x = Join t) by (intros x l X; apply in_map_iff in X; destruct X as (t & <- & _); eauto).
  split; [|split; [|split; [|split; [|split; [|split]]]]].
  - apply nodup_app; [apply nodup_map_inj; [intros ? ? [= ->]; reflexivity|exact No]| |].
    + apply nodup_app.
      * destruct Rr as [[_ ->]|[_ ->]]; repeat constructor. intros [].
      * apply nodup_app; [apply nodup_map_inj; [intros ? ? [= ->]; reflexivity|exact No]|repeat constructor; intros []|].
        intros x X [<-|[]]. destruct (JM _ _ X) as (? & Q). discriminate Q.
      * intros x X Y. apply InR in X. destruct X as [-> _]. rewrite in_app_iff in Y. destruct Y as [Y|[Y|[]]]; [|discriminate Y].
        destruct (JM _ _ Y) as (? & Q). discriminate Q.
    + intros x X Y. destruct (CM _ _ X) as (t & ->). rewrite !in_app_iff, InR in Y. destruct Y as [[Y _]|[Y|[Y|[]]]]; try discriminate Y.
      destruct (JM _ _ Y) as (? & Q). discriminate Q.
  - intros t. rewrite !in_app_iff, C, InR, Ot. split; [|tauto].
    intros [A|[[A _]|[A|[A|[]]]]]; try discriminate A; [exact A|destruct (JM _ _ A) as (? & Q); discriminate Q].
  - intros t. rewrite !in_app_iff, InR. split.
    + intros [A|[[[= ->] A]|[A|[A|[]]]]]; try discriminate A; [destruct (CM _ _ A) as (? & Q); discriminate Q|auto|destruct (JM _ _ A) as (? & Q); discriminate Q].
    + intros [A ->]. auto.
  - intros t. rewrite !in_app_iff, J, InR, Ot. split; [|tauto].
    intros [A|[[A _]|[A|[A|[]]]]]; try discriminate A; [destruct (CM _ _ A) as (? & Q); discriminate Q|exact A].
  - intros t. rewrite !in_app_iff, InR. intros [A|[[A _]|[A|[A|[]]]]]; try discriminate A;
      [destruct (CM _ _ A) as (? & Q); discriminate Q|destruct (JM _ _ A) as (? & Q); discriminate Q].
  - intros a1 t a2 Q u U.
    assert (P : exists m, a1 = (map Create ot ++ r) ++ m).
    { assert (Nj : ~ In (Join t) (map Create ot ++ r)).
      { rewrite in_app_iff, InR. intros [A|[A _]]; [destruct (CM _ _ A) as (? & X); discriminate X|discriminate A]. }
      rewrite app_assoc in Q. revert a1 Q Nj. generalize (map Create ot ++ r). intros pre. generalize (map Join ot ++ [Return]). intros post.
      induction pre as [|x pre IH]; intros a1 Q Nj; [exists a1; reflexivity|]. destruct a1 as [|y a1]; cbn in Q; injection Q as Q1 Q2.
      - exfalso. apply Nj. left. exact Q1.
      - subst y. destruct (IH a1 Q2) as (m & ->); [intros X; apply Nj; now right|]. exists m. reflexivity. }
    destruct P as (m & ->). destruct (is00 u) as [->|N]; [right|left]; rewrite !in_app_iff; left; [right; apply InR; auto|left; apply C, Ot; auto].
  - exists (map Create ot ++ r ++ map Join ot). now rewrite <- !app_assoc.
Qed.

Theorem fails ok p t : is_worker p t -> t <> Worker 0 0 -> ok t = false ->
  exists a u, main_actions ok p = map Create a ++ [Failed u] /\ ok u = false /\ is_worker p u.
Proof.
  intros H N K. unfold main_actions. apply in_ws in H. destruct (spawn_fails ok _ t H N K) as (a & u & -> & B & C).
  exists a, u. repeat split; auto. now apply in_ws.
Qed.

(** * Numbers *)
Lemma env_run_snoc l x : env_run (l ++ [x]) = env_step (env_run l) x.
Proof. unfold env_run. now rewrite fold_left_app. Qed.
Lemma enters_app a b : enters (a ++ b) = enters a ++ enters b.
Proof. apply flat_map_app. Qed.
Lemma leaves_app a b : leaves (a ++ b) = leaves a ++ leaves b.
Proof. apply flat_map_app. Qed.

Definition numbered (l : list nat) : list (nat * Z) := combine l (map Z.of_nat (seq 0 (length l))).
Lemma combine_snoc {A B} (a : list A) (b : list B) x y : length a = length b -> combine (a ++ [x]) (b ++ [y]) = combine a b ++ [(x, y)].
Proof. revert b. induction a as [|u a IH]; intros [|v b] H; try discriminate H; [reflexivity|]. cbn. rewrite IH; [reflexivity|]. now injection H. Qed.
Lemma numbered_snoc l w : numbered (l ++ [w]) = numbered l ++ [(w, Z.of_nat (length l))].
Proof.
  unfold numbered. rewrite app_length. cbn [length]. rewrite Nat.add_1_r, seq_S, map_app. cbn. apply combine_snoc.
  now rewrite map_length, seq_length.
Qed.

Lemma numbers_inv n l : history n l -> together n l ->
  taken (env_run l) = numbered (enters l)
  /\ count (env_run l) = (Z.of_nat (length (enters l)) - Z.of_nat (length (leaves l)))%Z
  /\ length (enters l) <= n /\ length (leaves l) <= length (enters l)
  /\ (leaves l <> [] -> length (enters l) = n)
  /\ told (env_run l) = (if (length (leaves l) =? n) then match rev (leaves l) with [] => [] | w :: _ => [w] end else []).
Proof.
  induction l as [|x l IH] using rev_ind.
  { intros _ _. cbn. repeat split; try lia; try easy. now destruct n. }
  intros (H1 & H2 & H3 & H4) T.
  assert (Pre : history n l /\ together n l).
  { rewrite enters_app in H1, H3. rewrite leaves_app in H2. split; [split; [|split; [|split]]|].
    - clear - H1. revert H1. generalize (enters l) (enters [x]). intros a b. induction a; cbn; intros Y; [constructor|]. inversion Y; subst. constructor; auto. rewrite in_app_iff in *. tauto.
    - clear - H2. revert H2. generalize (leaves l) (leaves [x]). intros a b. induction a; cbn; intros Y; [constructor|]. inversion Y; subst. constructor; auto. rewrite in_app_iff in *. tauto.
    - intros w W. apply H3. rewrite in_app_iff. now left.
    - intros l1 w l2 Q. apply (H4 l1 w (l2 ++ [x])). rewrite Q, <- app_assoc. reflexivity.
    - intros l1 w l2 Q. apply (T l1 w (l2 ++ [x])). rewrite Q, <- app_assoc. reflexivity. }
  destruct Pre as [P1 P2]. destruct (IH P1 P2) as (A & B & C & D & F & G). clear IH.
  rewrite env_run_snoc, enters_app, leaves_app.
  assert (Ln : length (enters (l ++ [x])) <= n).
  { rewrite <- (seq_length n 0). apply NoDup_incl_length; [exact H1|]. intros w W. apply in_seq. specialize (H3 w W). lia. }
  rewrite enters_app in Ln.
  assert (Ll : length (leaves (l ++ [x])) <= length (enters (l ++ [x]))).
  { apply NoDup_incl_length; [exact H2|]. intros w W. unfold leaves in W. apply in_flat_map in W. destruct W as ([v|v] & W1 & W2); cbn in W2; [destruct W2|].
    destruct W2 as [->|[]]. apply in_split in W1. destruct W1 as (l1 & l2 & Q). rewrite Q, enters_app, in_app_iff. left. eapply H4. exact Q. }
  rewrite enters_app, leaves_app in Ll.
  destruct x as [w|w]; cbn [env_step enters leaves flat_map app count taken told] in *.
  - rewrite !app_nil_r in *. assert (Lv : leaves l = []).
    { destruct (leaves l) as [|v k] eqn:Q; [reflexivity|]. exfalso. rewrite app_length in Ln. cbn in Ln. assert (X : v :: k <> []) by discriminate. specialize (F X). lia. }
    rewrite numbered_snoc, A, B, G, Lv. cbn [length rev] in *. rewrite app_length in *. cbn [length] in *. repeat split; try lia; try easy.
    f_equal. f_equal. f_equal. lia.
  - rewrite !app_nil_r in *. pose proof (T l w [] eq_refl) as Tn. rewrite app_length in *. cbn [length] in *.
    rewrite B, G, rev_app_distr. cbn [rev app]. repeat split; try lia; auto.
    destruct (Z.eqb_spec (Z.of_nat (length (enters l)) - Z.of_nat (length (leaves l)) - 1)%Z 0%Z) as [X|X];
      destruct (Nat.eqb_spec (length (leaves l) + 1) n) as [Y|Y]; try lia; destruct (Nat.eqb_spec (length (leaves l)) n); try lia; reflexivity.
Qed.

Lemma in_numbered l w k : In (w, k) (numbered l) -> exists i, k = Z.of_nat i /\ nth_error l i = Some w.
Proof.
  induction l as [|x l IH] using rev_ind; [intros []|]. rewrite numbered_snoc, in_app_iff. intros [H|[[= <- <-]|[]]].
  - destruct (IH H) as (i & -> & X). exists i. split; [reflexivity|]. rewrite nth_error_app1; [exact X|]. apply nth_error_Some. congruence.
  - exists (length l). split; [reflexivity|]. rewrite nth_error_app2, Nat.sub_diag by lia. reflexivity.
Qed.
Lemma numbered_fst l : map fst (numbered l) = l.
Proof. induction l as [|x l IH] using rev_ind; [reflexivity|]. rewrite numbered_snoc, map_app, IH. reflexivity. Qed.
