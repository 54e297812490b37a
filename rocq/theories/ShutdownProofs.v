From Verif Require Import Base ClockRounds Shutdown ShutdownSpec.
Local Open Scope nat_scope.

Lemma fupd_eq {A} (m : nat -> A) k v : fupd m k v k = v. Proof. unfold fupd. rewrite Nat.eqb_refl. reflexivity. Qed.
Lemma fupd_neq {A} (m : nat -> A) k v x : x <> k -> fupd m k v x = m x. Proof. intros H. unfold fupd. destruct (Nat.eqb_spec x k); [contradiction|reflexivity]. Qed.
Lemma fupd2_eq {A} (m : nat -> nat -> A) i k v : fupd2 m i k v i k = v. Proof. unfold fupd2. rewrite !fupd_eq. reflexivity. Qed.
Lemma fupd2_neq {A} (m : nat -> nat -> A) i k v x y : ~ (x = i /\ y = k) -> fupd2 m i k v x y = m x y.
Proof.
  intros H. unfold fupd2. destruct (Nat.eq_dec x i) as [->|ne]; [|rewrite fupd_neq by exact ne; reflexivity]. rewrite fupd_eq. apply fupd_neq. intros ->. apply H. split; reflexivity.
Qed.

(** The operations of the termination. *)
Definition ending (o : op) : Prop := match o with Serve _ => False | _ => True end.

(** ** Sums *)
Fixpoint sum (n : nat) (f : nat -> nat) : nat := match n with O => 0 | S n => f n + sum n f end.
Lemma sum_ext n f g : (forall i, i < n -> f i = g i) -> sum n f = sum n g.
Proof. induction n as [|n IH]; intros H; [reflexivity|]. cbn [sum]. rewrite (H n) by lia. rewrite IH; [reflexivity|]. intros i L. apply H. lia. Qed.
Lemma sum_lt n f g i : i < n -> (forall j, j <> i -> f j = g j) -> g i < f i -> sum n g < sum n f.
Proof.
  induction n as [|n IH]; intros L E D; [lia|]. cbn [sum]. destruct (Nat.eq_dec i n) as [->|ne].
  - rewrite (sum_ext n f g); [lia|]. intros j J. apply E. lia.
  - rewrite (E n) by congruence. specialize (IH ltac:(lia) E D). lia.
Qed.
Lemma sum_const n c : sum n (fun _ => c) = n * c.
Proof. induction n as [|n IH]; [reflexivity|]. cbn [sum]. rewrite IH. lia. Qed.
Lemma sum_le n f c : (forall i, i < n -> f i <= c) -> sum n f <= n * c.
Proof. induction n as [|n IH]; intros H; [cbn; lia|]. cbn [sum]. pose proof (H n ltac:(lia)). specialize (IH (fun i L => H i ltac:(lia))). lia. Qed.

Section Ends.
Variable n : nat.
Variable link : nat -> nat -> bool.

Definition place_cost (p : place) : nat :=
  match p with Running => 2 * n + 5 | Resigned => 2 * n + 4 | Outs l => 2 * length l + 3 | Drain _ l => 2 * length l + 4 | JoinPeers => 2 | JoinRti => 1 | Exited => 0 end.
Definition thread_cost (t : rthread) : nat := match t with RListen => 3 | RWant => 2 | RHold => 1 | RDone => 0 end.
Definition b2n (b : bool) : nat := if b then 1 else 0.
Definition mu (s : state) : nat :=
  sum n (fun i => place_cost (place_of s i)) + sum n (fun i => thread_cost (thread_of s i)) + sum n (fun i => b2n (hears_rti s i)) + sum n (fun k => sum n (fun i => b2n (hears s k i))).

Lemma cost_place (s : state) i p : i < n -> place_cost p < place_cost (place_of s i) -> sum n (fun j => place_cost (fupd (place_of s) i p j)) < sum n (fun j => place_cost (place_of s j)).
Proof. intros L D. apply (sum_lt n _ _ i L); [intros j J; rewrite fupd_neq by exact J; reflexivity|rewrite fupd_eq; exact D]. Qed.
Lemma step_mu s o s' : within n o -> ending o -> step n link s o = Some s' -> mu s' < mu s.
Proof.
  intros W ED E. destruct o as [i b|i|k i|i|i|i]; cbn [within ending] in *; [| | | | |destruct ED].
  - cbn [step] in E. destruct (place_of s i) eqn:PL; try discriminate. injection E as <-. unfold mu. cbn [place_of thread_of hears_rti hears].
    pose proof (cost_place s i Resigned W ltac:(rewrite PL; cbn; lia)). lia.
  - cbn [step] in E. unfold main_step in E.
    assert (G : forall p s1, place_of s1 = fupd (place_of s) i p -> thread_of s1 = thread_of s -> hears_rti s1 = hears_rti s -> hears s1 = hears s -> place_cost p < place_cost (place_of s i) -> mu s1 < mu s).
    { intros p s1 E1 E2 E3 E4 D. unfold mu. rewrite E1, E2, E3, E4. pose proof (cost_place s i p W D). lia. }
    destruct (place_of s i) as [| |[|k l]|k l| | |] eqn:PL; try discriminate.
    + injection E as <-. apply (G (Outs (seq 0 n))); try reflexivity. cbn [place_cost]. rewrite seq_length. lia.
    + injection E as <-. apply (G JoinPeers); try reflexivity. cbn. lia.
    + destruct (link i k && out_open s i k); injection E as <-; [apply (G (if normal s i then Drain k l else Outs l)); try reflexivity; destruct (normal s i); cbn [place_cost length]; lia|apply (G (Outs l)); try reflexivity; cbn [place_cost length]; lia].
    + destruct (in_open s k i); [discriminate|]. injection E as <-. apply (G (Outs l)); try reflexivity. cbn [place_cost]. lia.
    + destruct (forallb _ _); [|discriminate]. injection E as <-. apply (G JoinRti); try reflexivity. cbn. lia.
    + destruct (hears_rti s i); [discriminate|]. injection E as <-. apply (G Exited); try reflexivity. cbn. lia.
  - destruct W as [WK WI]. cbn [step] in E. destruct (hears s k i) eqn:HK; cbn [andb] in E; [|discriminate]. destruct (_ || _); [|discriminate]. injection E as <-. unfold mu. cbn [place_of thread_of hears_rti hears].
    assert (D : sum n (fun k0 => sum n (fun i0 => b2n (fupd2 (hears s) k i false k0 i0))) < sum n (fun k0 => sum n (fun i0 => b2n (hears s k0 i0)))).
    { apply (sum_lt n _ _ k WK).
      - intros j J. apply sum_ext. intros x _. rewrite fupd2_neq; [reflexivity|]. intros [X _]. congruence.
      - apply (sum_lt n _ _ i WI).
        + intros j J. rewrite fupd2_neq; [reflexivity|]. intros [_ X]. congruence.
        + rewrite fupd2_eq, HK. cbn. lia. }
    lia.
  - cbn [step] in E. destruct (hears_rti s i) eqn:HR; cbn [andb] in E; [|discriminate]. destruct (thread_of s i); try discriminate; injection E as <-; unfold mu; cbn [place_of thread_of hears_rti hears];
    (assert (D : sum n (fun j => b2n (fupd (hears_rti s) i false j)) < sum n (fun j => b2n (hears_rti s j))) by
      (apply (sum_lt n _ _ i W); [intros j J; rewrite fupd_neq by exact J; reflexivity|rewrite fupd_eq, HR; cbn; lia])); lia.
  - cbn [step] in E.
    assert (G : forall t s1, thread_of s1 = fupd (thread_of s) i t -> place_of s1 = place_of s -> hears_rti s1 = hears_rti s -> hears s1 = hears s -> thread_cost t < thread_cost (thread_of s i) -> mu s1 < mu s).
    { intros t s1 E1 E2 E3 E4 D. unfold mu. rewrite E1, E2, E3, E4.
      assert (X : sum n (fun j => thread_cost (fupd (thread_of s) i t j)) < sum n (fun j => thread_cost (thread_of s j))) by
        (apply (sum_lt n _ _ i W); [intros j J; rewrite fupd_neq by exact J; reflexivity|rewrite fupd_eq; exact D]). lia. }
    destruct (thread_of s i) eqn:TH; [| | |discriminate].
    + destruct (place_of s i); try discriminate; injection E as <-; apply (G RWant); try reflexivity; cbn; lia.
    + destruct (is_free (mutex s)); [|discriminate]. destruct (normal s i); injection E as <-; [apply (G RHold)|apply (G RDone)]; try reflexivity; cbn; lia.
    + destruct (place_of s i); try discriminate. injection E as <-. apply (G RDone); try reflexivity. cbn. lia.
Qed.
Lemma serve_same s i s' : step n link s (Serve i) = Some s' -> s' = s.
Proof. cbn [step]. destruct (thread_of s i); try discriminate. destruct (is_free _); congruence. Qed.
Lemma actions_mu : forall l s, Forall (within n) l -> actions n link s l + mu (run n link s l) <= mu s.
Proof.
  induction l as [|o l IH]; intros s F; cbn [actions run]; [lia|]. inversion F as [|? ? W F']; subst. destruct (step n link s o) as [s'|] eqn:E; [|apply IH, F'].
  specialize (IH s' F'). destruct o as [i b|i|k i|i|i|i]; try (pose proof (step_mu s _ s' W Logic.I E); lia). apply serve_same in E. subst s'. lia.
Qed.
Lemma start_mu : mu (start link) <= n * (3 * n + 9).
Proof.
  unfold mu. cbn [start place_of thread_of hears_rti hears]. rewrite !sum_const. pose proof (sum_le n (fun k => sum n (fun i => b2n (link i k))) (n * 1)) as S.
  assert (X : forall k, k < n -> sum n (fun i => b2n (link i k)) <= n * 1) by (intros k _; apply sum_le; intros i _; unfold b2n; destruct (link i k); lia).
  specialize (S X). cbn [place_cost thread_cost b2n]. lia.
Qed.

(** ** Invariant *)
Record Inv (s : state) : Prop := {
  i_thread : forall i, thread_of s i <> RListen -> place_of s i <> Running /\ i < n;
  i_mutex : forall i, thread_of s i = RHold <-> mutex s = Some i;
  i_hears : forall k i, in_open s k i = true -> hears s k i = true;
  i_closed : forall i, match place_of s i with Running | Resigned => True | _ => forall j, in_open s i j = false end;
  i_drain : forall i, match place_of s i with Drain k l => out_open s i k = false /\ k < n /\ Forall (fun k => k < n) l | Outs l => Forall (fun k => k < n) l | _ => True end }.
Lemma inv_start : Inv (start link).
Proof. constructor; cbn; try tauto; intros; split; intros; discriminate. Qed.
Lemma inv_go s i p : Inv s -> place_of s i <> Running -> p <> Running -> p <> Resigned -> place_of s i <> Resigned ->
  match p with Drain k l => out_open s i k = false /\ k < n /\ Forall (fun k => k < n) l | Outs l => Forall (fun k => k < n) l | _ => True end ->
  Inv (mkState (fupd (place_of s) i p) (normal s) (out_open s) (in_open s) (hears s) (hears_rti s) (thread_of s) (mutex s)).
Proof.
  intros [J1 J2 J3 J4 J5] NR NP NQ NS D. constructor; cbn [place_of normal out_open in_open hears hears_rti thread_of mutex].
  - intros x T. specialize (J1 x T). destruct (Nat.eq_dec x i) as [->|ne]; [rewrite fupd_eq; tauto|rewrite fupd_neq by exact ne; exact J1].
  - exact J2.
  - exact J3.
  - intros x. specialize (J4 x). destruct (Nat.eq_dec x i) as [->|ne]; [|rewrite fupd_neq by exact ne; exact J4]. rewrite fupd_eq. destruct (place_of s i), p; try contradiction; try exact Logic.I; exact J4.
  - intros x. specialize (J5 x). destruct (Nat.eq_dec x i) as [->|ne]; [|rewrite fupd_neq by exact ne; exact J5]. rewrite fupd_eq. exact D.
Qed.
Lemma inv_thread s i t m : Inv s -> i < n -> place_of s i <> Running -> (forall x, fupd (thread_of s) i t x = RHold <-> m = Some x) ->
  Inv (mkState (place_of s) (normal s) (out_open s) (in_open s) (hears s) (hears_rti s) (fupd (thread_of s) i t) m).
Proof.
  intros [J1 J2 J3 J4 J5] W NR M. constructor; cbn [place_of normal out_open in_open hears hears_rti thread_of mutex]; try assumption.
  intros x T. destruct (Nat.eq_dec x i) as [->|ne]; [split; assumption|]. rewrite fupd_neq in T by exact ne. exact (J1 x T).
Qed.
Lemma inv_step s o s' : Inv s -> within n o -> step n link s o = Some s' -> Inv s'.
Proof.
  intros I W E. destruct o as [i b|i|k i|i|i|i]; cbn [within] in W.
  - cbn [step] in E. destruct (place_of s i) eqn:PL; try discriminate. injection E as <-. destruct I as [J1 J2 J3 J4 J5]. constructor; cbn [place_of normal out_open in_open hears hears_rti thread_of mutex]; try assumption.
    + intros x T. specialize (J1 x T). destruct (Nat.eq_dec x i) as [->|ne]; [rewrite fupd_eq; split; [discriminate|exact W]|rewrite fupd_neq by exact ne; exact J1].
    + intros x. specialize (J4 x). destruct (Nat.eq_dec x i) as [->|ne]; [rewrite fupd_eq; exact Logic.I|rewrite fupd_neq by exact ne; exact J4].
    + intros x. specialize (J5 x). destruct (Nat.eq_dec x i) as [->|ne]; [rewrite fupd_eq; exact Logic.I|rewrite fupd_neq by exact ne; exact J5].
  - cbn [step] in E. unfold main_step in E. cbv zeta in E. pose proof (i_drain s I i) as D. destruct (place_of s i) as [| |[|k l]|k l| | |] eqn:PL; try discriminate.
    + injection E as <-. destruct I as [J1 J2 J3 J4 J5]. constructor; cbn [place_of normal out_open in_open hears hears_rti thread_of mutex]; try assumption.
      * intros x T. specialize (J1 x T). destruct (Nat.eq_dec x i) as [->|ne]; [rewrite fupd_eq; split; [discriminate|exact W]|rewrite fupd_neq by exact ne; exact J1].
      * intros x y O. destruct (Nat.eq_dec x i) as [->|ne]; [rewrite fupd_eq in O; discriminate|rewrite fupd_neq in O by exact ne; exact (J3 x y O)].
      * intros x. specialize (J4 x). destruct (Nat.eq_dec x i) as [->|ne]; [rewrite !fupd_eq; reflexivity|rewrite !fupd_neq by exact ne; exact J4].
      * intros x. specialize (J5 x). destruct (Nat.eq_dec x i) as [->|ne]; [rewrite fupd_eq|rewrite fupd_neq by exact ne; exact J5]. apply Forall_forall. intros y Y. apply in_seq in Y. lia.
    + injection E as <-. apply inv_go; try assumption; try rewrite PL; try discriminate; try exact Logic.I.
    + inversion D as [|? ? K F]; subst. destruct (link i k && out_open s i k).
      * injection E as <-. destruct I as [J1 J2 J3 J4 J5]. constructor; cbn [place_of normal out_open in_open hears hears_rti thread_of mutex]; try assumption.
        -- intros x T. specialize (J1 x T). destruct (Nat.eq_dec x i) as [->|ne]; [rewrite fupd_eq; split; [destruct (normal s i); discriminate|exact W]|rewrite fupd_neq by exact ne; exact J1].
        -- intros x. specialize (J4 x). destruct (Nat.eq_dec x i) as [->|ne]; [rewrite fupd_eq; rewrite PL in J4; destruct (normal s i); exact J4|rewrite !fupd_neq by exact ne; exact J4].
        -- intros x. specialize (J5 x). destruct (Nat.eq_dec x i) as [->|ne].
           ++ rewrite fupd_eq. destruct (normal s i); [rewrite fupd2_eq; auto|exact F].
           ++ rewrite fupd_neq by exact ne. destruct (place_of s x); try exact J5. rewrite fupd2_neq; [exact J5|]. intros [X _]. contradiction.
      * injection E as <-. apply inv_go; try assumption; try rewrite PL; try discriminate.
    + destruct (in_open s k i); [discriminate|]. injection E as <-. apply inv_go; try assumption; try rewrite PL; try discriminate. apply D.
    + destruct (forallb _ _); [|discriminate]. injection E as <-. apply inv_go; try assumption; try rewrite PL; try discriminate; try exact Logic.I.
    + destruct (hears_rti s i); [discriminate|]. injection E as <-. apply inv_go; try assumption; try rewrite PL; try discriminate; try exact Logic.I.
  - cbn [step] in E. destruct (_ && _); [|discriminate]. injection E as <-. destruct I as [J1 J2 J3 J4 J5]. constructor; cbn [place_of normal out_open in_open hears hears_rti thread_of mutex]; try assumption.
    + intros x y O. destruct (Nat.eq_dec x k) as [ex|ne]; [destruct (Nat.eq_dec y i) as [ey|ne']|].
      * subst x y. rewrite fupd2_eq in O. discriminate.
      * rewrite fupd2_neq in O |- * by tauto. exact (J3 x y O).
      * rewrite fupd2_neq in O |- * by tauto. exact (J3 x y O).
    + intros x. specialize (J4 x).
      assert (G : (forall j, in_open s x j = false) -> forall j, fupd2 (in_open s) k i false x j = false).
      { intros G j. destruct (Nat.eq_dec x k) as [ex|ne]; [destruct (Nat.eq_dec j i) as [ey|ne']|]; [subst x j; apply fupd2_eq|rewrite fupd2_neq by tauto; apply G..]. }
      destruct (place_of s x); try exact Logic.I; apply G, J4.
  - cbn [step] in E. destruct (_ && _); [|discriminate]. injection E as <-. destruct I. constructor; assumption.
  - cbn [step] in E. cbv zeta in E. pose proof (i_mutex s I) as M. pose proof (i_thread s I i) as T. destruct (thread_of s i) eqn:TH; [| | |discriminate].
    + assert (X : place_of s i <> Running /\ s' = mkState (place_of s) (normal s) (out_open s) (in_open s) (hears s) (hears_rti s) (fupd (thread_of s) i RWant) (mutex s)) by (destruct (place_of s i); try discriminate; split; congruence).
      destruct X as [NR ->]. apply inv_thread; try assumption. intros x. destruct (Nat.eq_dec x i) as [->|ne]; [rewrite fupd_eq|rewrite fupd_neq by exact ne; apply M]. rewrite <- M, TH. split; discriminate.
    + destruct (T ltac:(discriminate)) as [NR _]. destruct (mutex s) as [h|] eqn:MX; [discriminate|]. cbn [is_free] in E.
      destruct (normal s i); injection E as <-; apply inv_thread; try assumption; intros x; (destruct (Nat.eq_dec x i) as [->|ne]; [rewrite fupd_eq|rewrite fupd_neq by exact ne]).
      * split; reflexivity.
      * rewrite M. split; [discriminate|]. intros X. injection X as X. congruence.
      * split; discriminate.
      * apply M.
    + destruct (T ltac:(discriminate)) as [NR _]. assert (X : s' = mkState (place_of s) (normal s) (out_open s) (in_open s) (hears s) (hears_rti s) (fupd (thread_of s) i RDone) None) by (destruct (place_of s i); try discriminate; congruence). subst s'.
      apply inv_thread; try assumption. intros x. destruct (Nat.eq_dec x i) as [->|ne]; [rewrite fupd_eq; split; discriminate|rewrite fupd_neq by exact ne]. rewrite M. apply M in TH. split; [|discriminate]. intros X. congruence.
  - apply serve_same in E. subst s'. exact I.
Qed.
Lemma inv_run : forall l s, Inv s -> Forall (within n) l -> Inv (run n link s l).
Proof.
  induction l as [|o l IH]; intros s I F; cbn [run]; [exact I|]. inversion F as [|? ? W F']; subst. destruct (step n link s o) as [s'|] eqn:E; [|apply IH; assumption]. apply IH; [|exact F']. exact (inv_step s o s' I W E).
Qed.

(** ** Nobody gets stuck *)
Section Quiet.
Variable s : state.
Hypothesis I : Inv s.
Hypothesis Q : quiet n link s.
Lemma quiet_place i : i < n -> place_of s i = Running \/ (place_of s i = JoinRti /\ hears_rti s i = true) \/ place_of s i = Exited.
Proof.
  intros W. pose proof (Q (Main i) W) as E. cbn [step] in E. unfold main_step in E. cbv zeta in E. pose proof (i_drain s I i) as D. pose proof (i_closed s I i) as C.
  destruct (place_of s i) as [| |[|k l]|k l| | |] eqn:PL; try discriminate; try tauto.
  - destruct (link i k && out_open s i k); discriminate.
  - destruct (in_open s k i) eqn:O; [|discriminate]. destruct D as (D & K & _). pose proof (Q (Hear k i) (conj K W)) as H. cbn [step] in H. rewrite (i_hears s I k i O), D in H. discriminate.
  - destruct (forallb _ _) eqn:FB; [discriminate|]. exfalso.
    assert (X : forallb (fun j => negb (hears s i j)) (seq 0 n) = true); [|congruence]. apply forallb_forall. intros j J. apply in_seq in J. pose proof (Q (Hear i j) (conj W (proj2 J))) as H. cbn [step] in H. rewrite (C j) in H. rewrite orb_true_r, andb_true_r in H. destruct (hears s i j); [discriminate|reflexivity].
  - destruct (hears_rti s i); [tauto|discriminate].
Qed.
Lemma quiet_mutex : mutex s = None.
Proof.
  destruct (mutex s) as [k|] eqn:M; [|reflexivity]. apply (i_mutex s I) in M. destruct (i_thread s I k) as [NR W]; [congruence|].
  destruct (quiet_place k W) as [P|[[P HR]|P]]; [contradiction| |].
  - pose proof (Q (HearRti k) W) as H. cbn [step] in H. rewrite HR, M in H. discriminate.
  - pose proof (Q (Rti k) W) as H. cbn [step] in H. rewrite M, P in H. discriminate.
Qed.
Lemma quiet_over i : i < n -> place_of s i <> Running -> over s i.
Proof.
  intros W NR. pose proof (Q (Rti i) W) as H. cbn [step] in H. cbv zeta in H. rewrite quiet_mutex in H. cbn [is_free] in H.
  assert (T : thread_of s i = RDone).
  { destruct (thread_of s i) eqn:TH.
    - destruct (place_of s i); try contradiction; discriminate.
    - destruct (normal s i); discriminate.
    - apply (i_mutex s I) in TH. rewrite quiet_mutex in TH. discriminate.
    - reflexivity. }
  split; [|exact T]. destruct (quiet_place i W) as [P|[[P HR]|P]]; [contradiction| |exact P]. pose proof (Q (HearRti i) W) as X. cbn [step] in X. rewrite HR, T in X. discriminate.
Qed.
End Quiet.
End Ends.

(** ** The mutex of the coordinator *)
Definition busy (i : nat) (s : state) : Prop := mutex s = Some i /\ thread_of s i = RHold /\ place_of s i <> Exited.
Lemma busy_step n link s i o s' : Inv n s -> within n o -> o <> Main i -> busy i s -> step n link s o = Some s' -> busy i s'.
Proof.
  intros IV W NM (M & T & P) E. unfold busy. destruct o as [j b|j|k j|j|j|j]; cbn [within] in W.
  - cbn [step] in E. destruct (place_of s j) eqn:PL; try discriminate. injection E as <-. cbn [place_of thread_of mutex]. repeat split; try assumption. destruct (Nat.eq_dec i j) as [->|ne]; [rewrite fupd_eq; discriminate|rewrite fupd_neq by exact ne; exact P].
  - assert (ne : i <> j) by congruence. cbn [step] in E. unfold main_step in E. cbv zeta in E.
    assert (G : forall p, fupd (place_of s) j p i = place_of s i) by (intros p; apply fupd_neq; exact ne).
    destruct (place_of s j) as [| |[|k l]|k l| | |]; try discriminate; repeat (match type of E with context [if ?c then _ else _] => destruct c end; try discriminate); injection E as <-; cbn [place_of thread_of mutex]; rewrite G; auto.
  - cbn [step] in E. destruct (_ && _); [|discriminate]. injection E as <-. cbn. auto.
  - cbn [step] in E. destruct (_ && _); [|discriminate]. injection E as <-. cbn. auto.
  - cbn [step] in E. cbv zeta in E. destruct (Nat.eq_dec i j) as [->|ne].
    + rewrite T in E. destruct (place_of s j); try discriminate. contradiction.
    + rewrite M in E. cbn [is_free] in E. destruct (thread_of s j) eqn:TH; try discriminate.
      * assert (X : s' = mkState (place_of s) (normal s) (out_open s) (in_open s) (hears s) (hears_rti s) (fupd (thread_of s) j RWant) (Some i)) by (destruct (place_of s j); try discriminate; congruence). subst s'. cbn [place_of thread_of mutex]. rewrite fupd_neq by exact ne. auto.
      * apply (i_mutex n s IV) in TH. congruence.
  - apply serve_same in E. subst s'. auto.
Qed.
Lemma busy_run n link i : forall l s, Inv n s -> Forall (within n) l -> ~ In (Main i) l -> busy i s -> busy i (run n link s l).
Proof.
  induction l as [|o l IH]; intros s IV F NI B; cbn [run]; [exact B|]. inversion F as [|? ? W F']; subst. cbn [In] in NI. destruct (step n link s o) as [s'|] eqn:E; [|apply IH; tauto].
  apply IH; [exact (inv_step n link s o s' IV W E)|exact F'|tauto|]. apply (busy_step n link s i o s'); auto.
Qed.

(** ** What was sent before a normal termination is read *)
Section Flush.
Variable n : nat.
Variable link : nat -> nat -> bool.
Definition closed (s : state) (i k : nat) : Prop := out_open s i k = false /\ in_open s k i = false.
Definition flushing (s : state) (i : nat) : Prop :=
  match place_of s i with
  | Running | Resigned => forall k, out_open s i k = link i k
  | Outs l => NoDup l /\ (forall k, In k l -> out_open s i k = link i k) /\ (normal s i = true -> forall k, k < n -> link i k = true -> In k l \/ closed s i k)
  | Drain k0 l => NoDup (k0 :: l) /\ (forall k, In k l -> out_open s i k = link i k) /\ out_open s i k0 = false /\ (normal s i = true -> forall k, k < n -> link i k = true -> k = k0 \/ In k l \/ closed s i k)
  | _ => normal s i = true -> forall k, k < n -> link i k = true -> closed s i k
  end.
Definition unread (s : state) (k i : nat) : Prop := hears s k i = true -> in_open s k i = true \/ ~ (place_of s k = Running \/ place_of s k = Resigned).
Record Inv2 (s : state) : Prop := { j_flush : forall i, flushing s i; j_unread : forall k i, link i k = true -> unread s k i }.
Lemma inv2_start : Inv2 (start link).
Proof. constructor; [intros i k; reflexivity|]. intros k i L. unfold unread. cbn. auto. Qed.
(** What another federate does only closes more. *)
Lemma flushing_mono s s' i : place_of s' i = place_of s i -> normal s' i = normal s i -> (forall k, out_open s' i k = out_open s i k) -> (forall k, in_open s k i = false -> in_open s' k i = false) -> flushing s i -> flushing s' i.
Proof.
  intros EP EN EO EI F. unfold flushing, closed in *. rewrite EP, EN.
  assert (C : forall k, out_open s i k = false /\ in_open s k i = false -> out_open s' i k = false /\ in_open s' k i = false) by (intros k [A B]; split; [rewrite EO; exact A|apply EI, B]).
  destruct (place_of s i) as [| |l|k0 l| | |].
  1,2: intros k; rewrite EO; apply F.
  - destruct F as (A & B & D). split; [exact A|]. split; [intros k K; rewrite EO; apply B, K|]. intros N k K L. destruct (D N k K L); [tauto|right; apply C; assumption].
  - destruct F as (A & B & X & D). split; [exact A|]. split; [intros k K; rewrite EO; apply B, K|]. split; [rewrite EO; exact X|]. intros N k K L. destruct (D N k K L) as [|[|]]; [tauto|tauto|right; right; apply C; assumption].
  - intros N k K L. apply C, F; assumption.
  - intros N k K L. apply C, F; assumption.
  - intros N k K L. apply C, F; assumption.
Qed.
Lemma inv2_go s i p : Inv2 s -> (place_of s i <> Running) -> (place_of s i <> Resigned) ->
  flushing (mkState (fupd (place_of s) i p) (normal s) (out_open s) (in_open s) (hears s) (hears_rti s) (thread_of s) (mutex s)) i -> p <> Running -> p <> Resigned ->
  Inv2 (mkState (fupd (place_of s) i p) (normal s) (out_open s) (in_open s) (hears s) (hears_rti s) (thread_of s) (mutex s)).
Proof.
  intros [J K] P1 P2 F Q1 Q2. constructor.
  - intros x. destruct (Nat.eq_dec x i) as [->|ne]; [exact F|]. apply (flushing_mono s); cbn [place_of normal out_open in_open]; auto. apply fupd_neq, ne.
  - intros k x L. specialize (K k x L). unfold unread in *. cbn [place_of in_open hears]. intros H. destruct (K H) as [|N]; [tauto|right]. destruct (Nat.eq_dec k i) as [->|ne]; [rewrite fupd_eq; tauto|rewrite fupd_neq by exact ne; exact N].
Qed.
Lemma inv2_step s o s' : Inv2 s -> step n link s o = Some s' -> Inv2 s'.
Proof.
  intros IV E. destruct o as [i b|i|k i|i|i|i].
  - cbn [step] in E. destruct (place_of s i) eqn:PL; try discriminate. injection E as <-. destruct IV as [J K]. constructor.
    + intros x. destruct (Nat.eq_dec x i) as [->|ne].
      * specialize (J i). unfold flushing in *. rewrite PL in J. cbn [place_of out_open]. rewrite fupd_eq. exact J.
      * apply (flushing_mono s); cbn [place_of normal out_open in_open]; auto; apply fupd_neq, ne.
    + intros k x L. specialize (K k x L). unfold unread in *. cbn [place_of in_open hears]. intros H. destruct (K H) as [|N]; [tauto|right]. destruct (Nat.eq_dec k i) as [->|ne]; [rewrite PL in N; tauto|rewrite fupd_neq by exact ne; exact N].
  - cbn [step] in E. unfold main_step in E. cbv zeta in E. pose proof (j_flush s IV i) as F. unfold flushing in F. destruct (place_of s i) as [| |[|k l]|k l| | |] eqn:PL; try discriminate.
    + injection E as <-. destruct IV as [J K]. constructor.
      * intros x. destruct (Nat.eq_dec x i) as [->|ne].
        -- unfold flushing. cbn [place_of out_open normal]. rewrite fupd_eq. split; [apply seq_NoDup|]. split; [intros k _; apply F|]. intros _ k L _. left. apply in_seq. lia.
        -- apply (flushing_mono s); cbn [place_of normal out_open in_open]; auto; [apply fupd_neq, ne|]. intros k C. destruct (Nat.eq_dec k i) as [->|nk]; [rewrite fupd_eq; reflexivity|rewrite fupd_neq by exact nk; exact C].
      * intros k x L. specialize (K k x L). unfold unread in *. cbn [place_of in_open hears]. intros H. destruct (Nat.eq_dec k i) as [->|ne]; [right; rewrite fupd_eq; intros [X|X]; discriminate|rewrite !fupd_neq by exact ne; auto].
    + injection E as <-. apply inv2_go; try assumption; try rewrite PL; try discriminate. unfold flushing. cbn [place_of normal]. rewrite fupd_eq. intros N k L LK. destruct F as (_ & _ & F). destruct (F N k L LK) as [[]|C]; exact C.
    + destruct F as (ND & OP & F). destruct (link i k) eqn:LK; cbn [andb] in E; [rewrite (OP k (or_introl eq_refl)), LK in E|].
      * injection E as <-. destruct IV as [J K]. inversion ND as [|? ? NI ND']; subst. constructor.
        -- intros x. destruct (Nat.eq_dec x i) as [->|ne].
           ++ assert (OP' : forall y, In y l -> fupd2 (out_open s) i k false i y = link i y).
              { intros y Y. rewrite fupd2_neq; [apply OP; right; exact Y|]. intros [_ X]. subst y. contradiction. }
              unfold flushing. cbn [place_of normal out_open]. rewrite fupd_eq. destruct (normal s i) eqn:NO.
              ** split; [exact ND|]. split; [exact OP'|]. split; [apply fupd2_eq|]. intros _ y Y LY. destruct (F eq_refl y Y LY) as [[<-|IN]|[C1 C2]]; [tauto|tauto|]. destruct (Nat.eq_dec y k) as [->|nk]; [tauto|]. right. right. split; cbn [out_open in_open]; [rewrite fupd2_neq; [exact C1|tauto]|exact C2].
              ** split; [exact ND'|]. split; [exact OP'|discriminate].
           ++ apply (flushing_mono s); cbn [place_of normal out_open in_open]; auto; [apply fupd_neq, ne|]. intros y. apply fupd2_neq. tauto.
        -- intros y x L. specialize (K y x L). unfold unread in *. cbn [place_of in_open hears]. intros H. destruct (K H) as [|N]; [tauto|right]. destruct (Nat.eq_dec y i) as [->|ne]; [rewrite fupd_eq; destruct (normal s i); intros [X|X]; discriminate|rewrite fupd_neq by exact ne; exact N].
      * injection E as <-. inversion ND as [|? ? NI ND']; subst. apply inv2_go; try assumption; try rewrite PL; try discriminate. unfold flushing. cbn [place_of normal]. rewrite fupd_eq. split; [exact ND'|]. split; [intros y Y; apply OP; right; exact Y|]. intros N y Y LY. destruct (F N y Y LY) as [[<-|IN]|C]; [congruence|tauto|right; exact C].
    + destruct (in_open s k i) eqn:O; [discriminate|]. injection E as <-. destruct F as (ND & OP & OK & F). inversion ND as [|? ? NI ND']; subst. apply inv2_go; try assumption; try rewrite PL; try discriminate. unfold flushing. cbn [place_of normal]. rewrite fupd_eq. split; [exact ND'|]. split; [exact OP|]. intros N y Y LY. destruct (F N y Y LY) as [->|[IN|C]]; [right; split; assumption|tauto|right; exact C].
    + destruct (forallb _ _); [|discriminate]. injection E as <-. apply inv2_go; try assumption; try rewrite PL; try discriminate. unfold flushing. cbn [place_of normal]. rewrite fupd_eq. exact F.
    + destruct (hears_rti s i); [discriminate|]. injection E as <-. apply inv2_go; try assumption; try rewrite PL; try discriminate. unfold flushing. cbn [place_of normal]. rewrite fupd_eq. exact F.
  - cbn [step] in E. destruct (_ && _); [|discriminate]. injection E as <-. destruct IV as [J K]. constructor.
    + intros x. apply (flushing_mono s); cbn [place_of normal out_open in_open]; auto. intros y C. destruct (Nat.eq_dec y k) as [ey|ne]; [destruct (Nat.eq_dec x i) as [ex|ne']|]; [subst; apply fupd2_eq|rewrite fupd2_neq by tauto; exact C..].
    + intros y x L. specialize (K y x L). unfold unread in *. cbn [place_of in_open hears]. intros H. destruct (Nat.eq_dec y k) as [ey|ne]; [destruct (Nat.eq_dec x i) as [ex|ne']|].
      * subst. rewrite fupd2_eq in H. discriminate.
      * rewrite fupd2_neq in H |- * by tauto. auto.
      * rewrite fupd2_neq in H |- * by tauto. auto.
  - cbn [step] in E. destruct (_ && _); [|discriminate]. injection E as <-. destruct IV as [J K]. constructor; assumption.
  - cbn [step] in E. cbv zeta in E. assert (X : exists t m, s' = mkState (place_of s) (normal s) (out_open s) (in_open s) (hears s) (hears_rti s) (fupd (thread_of s) i t) m).
    { destruct (thread_of s i); try discriminate; repeat (match type of E with context [match ?c with _ => _ end] => destruct c end; try discriminate); injection E as <-; eauto. }
    destruct X as (t & m & ->). destruct IV as [J K]. constructor; assumption.
  - apply serve_same in E. subst s'. exact IV.
Qed.
Lemma inv2_run : forall l s, Inv2 s -> Inv2 (run n link s l).
Proof.
  induction l as [|o l IH]; intros s I; cbn [run]; [exact I|]. destruct (step n link s o) as [s'|] eqn:E; [|apply IH; assumption]. apply IH. exact (inv2_step s o s' I E).
Qed.
End Flush.

(** ** A thread that does not close what it does not read *)
Record Stuck (i k : nat) (l : list nat) (s : state) : Prop := {
  k_place : place_of s i = Drain k l; k_open : in_open s k i = true; k_hears : hears s k i = false;
  k_mutex : mutex s = Some i; k_holds : forall j, thread_of s j = RHold <-> j = i }.
Lemma stuck_step n link i k l s o s' : i <> k -> o <> Main k -> Stuck i k l s -> step n link s o = Some s' -> Stuck i k l s'.
Proof.
  intros NE NM [A B C D F] E. destruct o as [j b|j|x j|j|j|j].
  - cbn [step] in E. destruct (place_of s j) eqn:PL; try discriminate. injection E as <-. constructor; cbn; auto. rewrite fupd_neq; [exact A|]. intros ->. congruence.
  - cbn [step] in E. unfold main_step in E. cbv zeta in E. destruct (Nat.eq_dec i j) as [<-|ne]; [rewrite A, B in E; discriminate|].
    assert (G : forall p, fupd (place_of s) j p i = Drain k l) by (intros p; rewrite fupd_neq by exact ne; exact A). assert (nk : k <> j) by congruence.
    destruct (place_of s j) as [| |[|y l0]|y l0| | |]; try discriminate; repeat (match type of E with context [if ?c then _ else _] => destruct c end; try discriminate); injection E as <-; constructor; cbn [place_of in_open hears mutex thread_of]; auto.
    rewrite fupd_neq by exact nk. exact B.
  - cbn [step] in E. destruct (hears s x j && _) eqn:HX; [|discriminate]. injection E as <-. apply andb_prop in HX as [HX _].
    assert (N : ~ (k = x /\ i = j)) by (intros [-> ->]; congruence). constructor; cbn [place_of in_open hears mutex thread_of]; auto; rewrite fupd2_neq by exact N; assumption.
  - cbn [step] in E. destruct (_ && _); [|discriminate]. injection E as <-. constructor; assumption.
  - cbn [step] in E. cbv zeta in E. rewrite D in E. cbn [is_free] in E. destruct (thread_of s j) eqn:TH; try discriminate.
    + assert (X : s' = mkState (place_of s) (normal s) (out_open s) (in_open s) (hears s) (hears_rti s) (fupd (thread_of s) j RWant) (Some i)) by (destruct (place_of s j); try discriminate; congruence). subst s'.
      constructor; cbn [place_of in_open hears mutex thread_of]; auto. intros y. destruct (Nat.eq_dec y j) as [->|ne]; [rewrite fupd_eq, <- F, TH; split; discriminate|rewrite fupd_neq by exact ne; apply F].
    + apply F in TH. subst j. rewrite A in E. discriminate.
  - apply serve_same in E. subst s'. constructor; assumption.
Qed.
Lemma stuck_run n link i k l : i <> k -> forall ops s, ~ In (Main k) ops -> Stuck i k l s -> Stuck i k l (run n link s ops).
Proof.
  intros NE. induction ops as [|o ops IH]; intros s NI K; cbn [run]; [exact K|]. cbn [In] in NI. destruct (step n link s o) as [s'|] eqn:E; [|apply IH; tauto]. apply IH; [tauto|]. apply (stuck_step n link i k l s o s'); auto.
Qed.
