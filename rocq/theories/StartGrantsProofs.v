From Verif Require Import Base Tag TagSpec TagProofs ClockRounds ShutdownProofs StartGrants StartGrantsSpec.
Local Open Scope nat_scope.

Ltac fc x k := destruct (Nat.eq_dec x k) as [->|?]; [rewrite ?fupd_eq in *|rewrite ?fupd_neq in * by assumption].

(** ** Grants *)
Lemma min_completed_le s l u : In u l -> stat s u = NotConnected \/ tag_le (min_completed s l) (completed s u).
Proof.
  induction l as [|v l IH]; intros H; [contradiction|]. cbn [min_completed fold_right].
  fold (min_completed s l). destruct H as [->|H].
  - destruct (stat s u) eqn:E; [right|right|left; reflexivity];
      (destruct (tag_compare (completed s u) (min_completed s l) <? 0)%Z eqn:C;
        [apply tag_le_refl|apply Z.ltb_ge in C; apply tag_compare_ge in C; exact C]).
  - destruct (IH H) as [D|D]; [left; exact D|right]. destruct (stat s v); [| |exact D];
      (destruct (tag_compare (completed s v) (min_completed s l) <? 0)%Z eqn:C; [|exact D]; apply Z.ltb_lt in C;
       apply (tag_le_trans _ (min_completed s l)); [apply tag_compare_le; lia|exact D]).
Qed.
Lemma grant_safe tp s e t : grant tp s e = Some t -> safe tp s e t.
Proof.
  unfold grant. destruct (_ <? _)%Z; [|discriminate]. intros [= <-] u U. apply min_completed_le, U.
Qed.
Lemma grant_later tp s e t : grant tp s e = Some t -> tag_lt (last s e) t.
Proof.
  unfold grant. destruct (0 <? _)%Z eqn:C; [|discriminate]. intros [= <-]. apply Z.ltb_lt in C.
  apply tag_compare_gt. destruct (tag_compare_range (min_completed s (ups tp e)) (last s e)) as [?|[?|?]]; lia.
Qed.

(** ** What a walk preserves *)
Lemma walk_ind tp i (P : state -> Prop) :
  (forall s e t, P s -> grant tp s e = Some t -> stat s e = Granted -> P (write_grant e t s)) ->
  (forall s, P s -> P (set_thread i Listen s)) ->
  (forall s e t l, P s -> grant tp s e = Some t -> stat s e = Pending -> P (set_thread i (Walk e t l) s)) ->
  forall l s, P s -> P (walk tp s i l).
Proof.
  intros HW HL HP. induction l as [|e l IH]; intros s Hs; cbn [walk]; [apply HL, Hs|].
  destruct (grant tp s e) as [t|] eqn:G; [|apply IH, Hs].
  destruct (stat s e) eqn:T; [apply HP; assumption| |apply IH, Hs].
  apply IH. apply HW; assumption.
Qed.

Definition started (l : list message) : Prop := exists g, l = g ++ [Start] /\ Forall (fun m => m <> Start) g.
Lemma started_cons l t : started l -> started (Grant t :: l).
Proof. intros (g & -> & F). exists (Grant t :: g). split; [reflexivity|]. constructor; [discriminate|exact F]. Qed.
Lemma started_nonempty l : started l -> l <> [].
Proof. intros (g & -> & _). destruct g; discriminate. Qed.

Definition place (tp : topology) (s : state) (i : nat) : Prop :=
  match thread_of s i with
  | Propose | AwaitAll => stat s i = Pending /\ sent s i = []
  | SendStart => stat s i = Pending /\ sent s i = [] /\ count s = size tp
  | MarkSent => stat s i = Pending /\ sent s i = [Start] /\ count s = size tp
  | Listen | Walk _ _ _ => stat s i = Granted /\ started (sent s i) /\ count s = size tp
  | Gone => stat s i = NotConnected /\ (sent s i = [] \/ (started (sent s i) /\ count s = size tp))
  end.
Definition early (s : state) (i : nat) : nat :=
  match thread_of s i with Propose => 1 | Gone => match sent s i with [] => 1 | _ => 0 end | _ => 0 end.
Record inv (tp : topology) (s : state) : Prop := {
  inv_place : forall i, place tp s i;
  inv_sent : forall e t, In (Grant t) (sent s e) -> safe tp s e t;
  inv_walk : forall i e t l, thread_of s i = Walk e t l -> safe tp s e t;
  inv_count : count s + sum (size tp) (early s) = size tp }.

Lemma place_write tp s e t : stat s e = Granted -> (forall i, place tp s i) -> forall i, place tp (write_grant e t s) i.
Proof.
  intros G P i. specialize (P i). unfold place, write_grant in *. rewrite G. cbn in *.
  destruct (Nat.eq_dec i e) as [->|ne]; [rewrite !fupd_eq|rewrite !fupd_neq by exact ne; exact P].
  destruct (thread_of s e); try (destruct P as [P _]; congruence);
    (destruct P as (A & B & C); split; [exact A|split; [apply started_cons, B|exact C]]).
Qed.
Lemma early_write tp s e t : stat s e = Granted -> (forall i, place tp s i) -> forall i, early (write_grant e t s) i = early s i.
Proof.
  intros G P i. specialize (P i). unfold early, place, write_grant in *. rewrite G. cbn in *.
  destruct (Nat.eq_dec i e) as [->|ne]; [rewrite !fupd_eq|rewrite !fupd_neq by exact ne; reflexivity].
  destruct (thread_of s e); try reflexivity. destruct P as [P _]. congruence.
Qed.
Lemma inv_write tp s e t : stat s e = Granted -> safe tp s e t -> inv tp s -> inv tp (write_grant e t s).
Proof.
  intros G SF [A B C D]. pose proof (place_write tp s e t G A) as A'. pose proof (early_write tp s e t G A) as E'.
  assert (ST : forall e' t', safe tp s e' t' -> safe tp (write_grant e t s) e' t').
  { intros e' t' X. unfold safe, write_grant. rewrite G. cbn. exact X. }
  constructor; [exact A'| | |].
  - intros e' t' X. apply ST. unfold write_grant in X. rewrite G in X. cbn in X.
    destruct (Nat.eq_dec e' e) as [->|ne]; [rewrite fupd_eq in X|rewrite fupd_neq in X by exact ne; apply B, X].
    destruct X as [[= <-]|X]; [exact SF|apply B, X].
  - intros i e' t' l X. apply ST. apply (C i e' t' l). unfold write_grant in X. rewrite G in X. exact X.
  - rewrite (sum_ext (size tp) _ (early s)); [|intros i _; apply E']. unfold write_grant. rewrite G. exact D.
Qed.
Lemma inv_thread tp s i t : (thread_of s i = Listen \/ exists e x l, thread_of s i = Walk e x l) ->
  (t = Listen \/ exists e x l, t = Walk e x l /\ safe tp s e x) -> inv tp s -> inv tp (set_thread i t s).
Proof.
  intros O N [A B C D]. constructor.
  - intros j. specialize (A j). unfold place in *. cbn. destruct (Nat.eq_dec j i) as [->|ne]; [rewrite fupd_eq|rewrite fupd_neq by exact ne; exact A].
    assert (X : stat s i = Granted /\ started (sent s i) /\ count s = size tp) by (destruct O as [O|(e & x & l & O)]; rewrite O in A; exact A).
    destruct N as [->|(e & x & l & -> & _)]; exact X.
  - exact B.
  - intros j e x l X. cbn in X. destruct (Nat.eq_dec j i) as [->|ne]; [rewrite fupd_eq in X|rewrite fupd_neq in X by exact ne; exact (C j e x l X)].
    destruct N as [->|(e' & x' & l' & -> & SF)]; [discriminate|]. injection X as -> -> ->. exact SF.
  - rewrite (sum_ext (size tp) _ (early s)); [exact D|]. intros j _. unfold early. cbn.
    destruct (Nat.eq_dec j i) as [->|ne]; [rewrite fupd_eq|rewrite fupd_neq by exact ne; reflexivity].
    destruct O as [-> |(e & x & l & ->)]; destruct N as [->|(e' & x' & l' & -> & _)]; reflexivity.
Qed.
Definition going (s : state) (i : nat) : Prop := thread_of s i = Listen \/ exists e x l, thread_of s i = Walk e x l.
Lemma thread_write e t s : thread_of (write_grant e t s) = thread_of s.
Proof. unfold write_grant. destruct (stat s e); reflexivity. Qed.
Lemma inv_walk_all tp i l s : going s i -> inv tp s -> inv tp (walk tp s i l).
Proof.
  intros G IV. refine (proj2 (walk_ind tp i (fun s => going s i /\ inv tp s) _ _ _ l s (conj G IV))).
  - intros s0 e t [G0 I0] GR SG. split; [unfold going; rewrite thread_write; exact G0|]. apply inv_write; [exact SG|apply grant_safe, GR|exact I0].
  - intros s0 [G0 I0]. split; [left; cbn; apply fupd_eq|]. apply inv_thread; [exact G0|left; reflexivity|exact I0].
  - intros s0 e t l0 [G0 I0] GR _. split; [right; exists e, t, l0; cbn; apply fupd_eq|].
    apply inv_thread; [exact G0|right; exists e, t, l0; split; [reflexivity|apply grant_safe, GR]|exact I0].
Qed.

Lemma sum_change n f g i d : i < n -> (forall j, j <> i -> g j = f j) -> g i + d = f i -> sum n g + d = sum n f.
Proof.
  induction n as [|n IH]; intros L E D; [lia|]. cbn [sum]. destruct (Nat.eq_dec i n) as [->|ne].
  - rewrite (sum_ext n g f); [lia|]. intros j J. apply E. lia.
  - rewrite (E n) by lia. rewrite <- (IH ltac:(lia) E D). lia.
Qed.
Lemma sum_ge n f i : i < n -> f i <= sum n f.
Proof. induction n as [|n IH]; intros L; [lia|]. cbn [sum]. destruct (Nat.eq_dec i n) as [->|ne]; [lia|]. specialize (IH ltac:(lia)). lia. Qed.

(** A change of one thread, of its own status and of what its federate has been sent. *)
Lemma place_other tp s s' i : (forall j, j <> i -> thread_of s' j = thread_of s j /\ stat s' j = stat s j /\ sent s' j = sent s j) -> count s' = count s ->
  (forall j, place tp s j) -> place tp s' i -> forall j, place tp s' j.
Proof.
  intros E C A P j. destruct (Nat.eq_dec j i) as [->|ne]; [exact P|]. specialize (A j). unfold place in *.
  destruct (E j ne) as (-> & -> & ->). rewrite C. exact A.
Qed.

Lemma inv_step tp s o s' : within tp o -> inv tp s -> step tp s o = Some s' -> inv tp s'.
Proof.
  intros W IV H. pose proof (inv_place tp s IV) as A. pose proof (inv_sent tp s IV) as B. pose proof (inv_walk tp s IV) as C. pose proof (inv_count tp s IV) as D.
  destruct o as [i|i|i|i|i t|i|i]; cbn [step] in H; cbn [within] in W; pose proof (A i) as Ai; unfold place in Ai; destruct (thread_of s i) eqn:T; try discriminate.
  - (* Timestamp *)
    cbv zeta in H. remember (Nat.eqb (S (count s)) (size tp)) as b eqn:EB. symmetry in EB. injection H as <-.
    assert (D' : S (count s) + (sum (size tp) (early s) - 1) = size tp /\ 1 <= sum (size tp) (early s)).
    { pose proof (sum_ge (size tp) (early s) i W) as X. unfold early at 1 in X. rewrite T in X. lia. }
    assert (LT : count s < size tp) by lia.
    constructor.
    + intros j. specialize (A j). unfold place in *. cbn [thread_of stat sent count]. destruct (Nat.eq_dec j i) as [->|ne]; [rewrite fupd_eq|rewrite fupd_neq by exact ne].
      * rewrite T in A. destruct b; [apply Nat.eqb_eq in EB|exact A]. destruct A as [? ?]. repeat split; assumption.
      * destruct (thread_of s j); try exact A; try (exfalso; lia). destruct A as [A1 [A2|[_ A2]]]; [split; [exact A1|left; exact A2]|lia].
    + exact B.
    + intros j e x l X. cbn [thread_of] in X. destruct (Nat.eq_dec j i) as [->|ne]; [rewrite fupd_eq in X|rewrite fupd_neq in X by exact ne; exact (C j e x l X)].
      destruct b; discriminate.
    + cbn [count]. match goal with |- _ + sum _ ?g = _ => assert (X : sum (size tp) g + 1 = sum (size tp) (early s)) end; [|lia].
      apply (sum_change (size tp) (early s) _ i 1 W).
      * intros j ne. unfold early. cbn [thread_of sent]. rewrite fupd_neq by exact ne. reflexivity.
      * unfold early. cbn [thread_of sent]. rewrite fupd_eq, T. destruct b; reflexivity.
  - (* Wake *)
    destruct (Nat.ltb_spec (count s) (size tp)) as [|GE]; [discriminate|]. injection H as <-. constructor.
    + apply (place_other tp s _ i); [|reflexivity|exact A|].
      * intros j ne. cbn. rewrite fupd_neq by exact ne. repeat split; reflexivity.
      * unfold place. cbn. rewrite fupd_eq. destruct Ai as [? ?]. repeat split; try assumption. lia.
    + exact B.
    + intros j e x l X. cbn in X. fc j i; [discriminate|exact (C j e x l X)].
    + cbn [count set_thread]. rewrite (sum_ext (size tp) _ (early s)); [exact D|]. intros j _. unfold early. cbn. fc j i; [rewrite T|]; reflexivity.
  - (* Write *)
    injection H as <-. destruct Ai as (A1 & A2 & A3). constructor.
    + apply (place_other tp s _ i); [|reflexivity|exact A|].
      * intros j ne. cbn. rewrite !fupd_neq by exact ne. repeat split; reflexivity.
      * unfold place. cbn. rewrite !fupd_eq, A2. repeat split; assumption.
    + intros e t X. cbn in X. unfold safe; cbn. apply (B e t). fc e i; [destruct X as [X|X]; [discriminate|exact X]|exact X].
    + intros j e x l X. cbn in X. fc j i; [discriminate|exact (C j e x l X)].
    + cbn [count set_thread send]. rewrite (sum_ext (size tp) _ (early s)); [exact D|]. intros j _. unfold early. cbn. fc j i; [rewrite T|]; reflexivity.
  - (* Mark *)
    injection H as <-. destruct Ai as (A1 & A2 & A3).
    assert (SF : forall e t, safe tp s e t -> safe tp (set_thread i Listen (set_stat i Granted s)) e t).
    { intros e t X u U. cbn. destruct (X u U) as [N|N]; [left|right; exact N]. rewrite fupd_neq; [exact N|]. intros ->. congruence. }
    constructor.
    + apply (place_other tp s _ i); [|reflexivity|exact A|].
      * intros j ne. cbn. rewrite !fupd_neq by exact ne. repeat split; reflexivity.
      * unfold place. cbn. rewrite !fupd_eq, A2. split; [reflexivity|]. split; [|exact A3]. exists []. split; [reflexivity|constructor].
    + intros e t X. apply SF, B, X.
    + intros j e x l X. cbn in X. fc j i; [discriminate|apply SF; exact (C j e x l X)].
    + cbn [count set_thread set_stat]. rewrite (sum_ext (size tp) _ (early s)); [exact D|]. intros j _. unfold early. cbn. fc j i; [rewrite T|]; reflexivity.
  - (* Ltc *)
    destruct (tag_compare (completed s i) t <? 0)%Z eqn:CT; [|discriminate]. injection H as <-.
    apply inv_walk_all; [left; exact T|].
    assert (SF : forall e x, safe tp s e x -> safe tp (mkState (thread_of s) (stat s) (count s) (fupd (completed s) i t) (last s) (sent s)) e x).
    { intros e x X u U. cbn. destruct (X u U) as [N|N]; [left; exact N|right]. fc u i; [|exact N].
      apply (tag_le_trans _ (completed s i)); [exact N|]. apply Z.ltb_lt in CT. apply tag_compare_le. lia. }
    constructor; [exact A|intros e x X; apply SF, B, X|intros j e x l X; apply SF; exact (C j e x l X)|exact D].
  - (* Resume *)
    destruct (stat s e) eqn:SE; [discriminate| |]; injection H as <-; (apply inv_walk_all; [right; exists e, t, rest; rewrite thread_write; exact T|]).
    + apply inv_write; [exact SE|exact (C i e t rest T)|exact IV].
    + unfold write_grant. rewrite SE. exact IV.
  - (* Die, before the proposal *)
    injection H as <-. destruct Ai as (A1 & A2).
    assert (SF : forall e t, safe tp s e t -> safe tp (set_thread i Gone (set_stat i NotConnected s)) e t).
    { intros e t X u U. cbn. fc u i; [left; reflexivity|apply X, U]. }
    constructor.
    + apply (place_other tp s _ i); [|reflexivity|exact A|].
      * intros j ne. cbn. rewrite !fupd_neq by exact ne. repeat split; reflexivity.
      * unfold place. cbn. rewrite !fupd_eq. split; [reflexivity|left; exact A2].
    + intros e t X. apply SF, B, X.
    + intros j e x l X. cbn in X. fc j i; [discriminate|apply SF; exact (C j e x l X)].
    + cbn [count set_thread set_stat]. rewrite (sum_ext (size tp) _ (early s)); [exact D|]. intros j _. unfold early. cbn. fc j i; [rewrite T, A2|]; reflexivity.
  - (* Die, later *)
    injection H as <-. destruct Ai as (A1 & A2 & A3).
    assert (SF : forall e t, safe tp s e t -> safe tp (set_thread i Gone (set_stat i NotConnected s)) e t).
    { intros e t X u U. cbn. fc u i; [left; reflexivity|apply X, U]. }
    constructor.
    + apply (place_other tp s _ i); [|reflexivity|exact A|].
      * intros j ne. cbn. rewrite !fupd_neq by exact ne. repeat split; reflexivity.
      * unfold place. cbn. rewrite !fupd_eq. split; [reflexivity|right; split; assumption].
    + intros e t X. apply SF, B, X.
    + intros j e x l X. cbn in X. fc j i; [discriminate|apply SF; exact (C j e x l X)].
    + cbn [count set_thread set_stat]. rewrite (sum_ext (size tp) _ (early s)); [exact D|]. intros j _. unfold early. cbn. fc j i; [rewrite T|reflexivity].
      destruct (sent s i) eqn:SS; [|reflexivity]. exfalso. exact (started_nonempty _ A2 eq_refl).
Qed.
Lemma sum_one n : sum n (fun _ => 1) = n.
Proof. induction n as [|n IH]; [reflexivity|]. cbn [sum]. rewrite IH. reflexivity. Qed.
Lemma inv_init tp : inv tp init.
Proof.
  constructor.
  - intros i. split; reflexivity.
  - intros e t X. contradiction.
  - intros i e t l X. discriminate.
  - cbn [count init]. rewrite (sum_ext (size tp) _ (fun _ => 1)); [apply sum_one|reflexivity].
Qed.
Lemma run_app tp l1 l2 s : run tp s (l1 ++ l2) = run tp (run tp s l1) l2.
Proof. revert s. induction l1 as [|o l1 IH]; intros s; [reflexivity|]. cbn [run app]. destruct (step tp s o); apply IH. Qed.
Lemma run_ind tp (P : state -> Prop) (Q : op -> Prop) : (forall s o s', Q o -> P s -> step tp s o = Some s' -> P s') -> forall l s, Forall Q l -> P s -> P (run tp s l).
Proof.
  intros HS. induction l as [|o l IH]; intros s F HP; [exact HP|]. inversion F as [|? ? Q1 F1]; subst. cbn [run].
  destruct (step tp s o) as [s'|] eqn:E; [|apply IH; assumption]. apply IH; [assumption|]. exact (HS s o s' Q1 HP E).
Qed.
Lemma inv_run tp l s : Forall (within tp) l -> inv tp s -> inv tp (run tp s l).
Proof. apply run_ind. intros s0 o s' W I0 E. exact (inv_step tp s0 o s' W I0 E). Qed.

Lemma start_first tp l i : Forall (within tp) l -> begins_with_start (sent (run tp init l) i).
Proof.
  intros W. pose proof (inv_place tp _ (inv_run tp l init W (inv_init tp)) i) as A. unfold place in A. unfold begins_with_start.
  destruct (thread_of _ i).
  1-3: left; apply A.
  - right. exists []. split; [apply A|constructor].
  - right. apply A.
  - right. apply A.
  - destruct A as [_ [A|[A _]]]; [left; exact A|right; exact A].
Qed.
Lemma grants_safe tp l e t : Forall (within tp) l -> In (Grant t) (sent (run tp init l) e) -> safe tp (run tp init l) e t.
Proof. intros W. apply (inv_sent tp _ (inv_run tp l init W (inv_init tp))). Qed.

(** ** Nobody is left waiting *)
Lemma walk_frame tp s i l : stat (walk tp s i l) = stat s /\ count (walk tp s i l) = count s /\ completed (walk tp s i l) = completed s /\ forall j, j <> i -> thread_of (walk tp s i l) j = thread_of s j.
Proof.
  refine (walk_ind tp i (fun x => stat x = stat s /\ count x = count s /\ completed x = completed s /\ forall j, j <> i -> thread_of x j = thread_of s j) _ _ _ l s _).
  - intros x e t (A & B & C & D) _ G. unfold write_grant. rewrite G. cbn. repeat split; assumption.
  - intros x (A & B & C & D). cbn. repeat split; try assumption. intros j ne. rewrite fupd_neq by exact ne. apply D, ne.
  - intros x e t r (A & B & C & D) _ _. cbn. repeat split; try assumption. intros j ne. rewrite fupd_neq by exact ne. apply D, ne.
  - repeat split; reflexivity.
Qed.
Lemma walk_thread tp i : forall l s, thread_of (walk tp s i l) i = Listen \/ exists e t r, thread_of (walk tp s i l) i = Walk e t r /\ length r < length l.
Proof.
  induction l as [|e l IH]; intros s; cbn [walk]; [left; cbn; apply fupd_eq|].
  assert (X : forall s', thread_of (walk tp s' i l) i = Listen \/ exists e t r, thread_of (walk tp s' i l) i = Walk e t r /\ length r < length (e :: l)).
  { intros s'. destruct (IH s') as [A|(e' & t & r & A & B)]; [left; exact A|right; exists e', t, r; split; [exact A|cbn [length]; lia]]. }
  destruct (grant tp s e) as [t|]; [|apply X]. destruct (stat s e); [|apply X|apply X].
  right. exists e, t, l. split; [cbn; apply fupd_eq|cbn [length]; lia].
Qed.
Definition alive (s : state) (i : nat) : Prop := thread_of s i <> Propose /\ thread_of s i <> Gone.
Lemma alive_step tp s o s' i : notdie o -> alive s i -> step tp s o = Some s' -> alive s' i.
Proof.
  intros N [A1 A2] H. unfold alive.
  assert (X : forall t, t <> Propose -> t <> Gone -> forall k, fupd (thread_of s) k t i <> Propose /\ fupd (thread_of s) k t i <> Gone).
  { intros t T1 T2 k. destruct (Nat.eq_dec i k) as [->|ne]; [rewrite fupd_eq; split; assumption|rewrite fupd_neq by exact ne; split; assumption]. }
  assert (Y : forall x k l, thread_of x = thread_of s -> thread_of (walk tp x k l) i <> Propose /\ thread_of (walk tp x k l) i <> Gone).
  { intros x k l E. destruct (Nat.eq_dec i k) as [->|ne].
    - destruct (walk_thread tp k l x) as [-> |(e & t & r & -> & _)]; split; discriminate.
    - destruct (walk_frame tp x k l) as (_ & _ & _ & F). rewrite (F i ne), E. split; assumption. }
  destruct o as [k|k|k|k|k t|k|k]; cbn [step] in H; destruct (thread_of s k) eqn:T; try discriminate; try contradiction.
  - cbv zeta in H. remember (Nat.eqb (S (count s)) (size tp)) as b. injection H as <-. cbn [thread_of]. apply X; destruct b; discriminate.
  - destruct (Nat.ltb _ _); [discriminate|]. injection H as <-. apply X; discriminate.
  - injection H as <-. apply X; discriminate.
  - injection H as <-. apply X; discriminate.
  - destruct (_ <? _)%Z; [|discriminate]. injection H as <-. apply Y. reflexivity.
  - destruct (stat s e); [discriminate| |]; injection H as <-; apply Y; apply thread_write.
Qed.
Lemma fresh_step tp s o s' i : notdie o -> o <> Timestamp i -> thread_of s i = Propose -> step tp s o = Some s' -> thread_of s' i = Propose.
Proof.
  intros N NE P H.
  assert (Y : forall x k l, k <> i -> thread_of x = thread_of s -> thread_of (walk tp x k l) i = Propose).
  { intros x k l ne E. destruct (walk_frame tp x k l) as (_ & _ & _ & F). rewrite F, E; [exact P|congruence]. }
  destruct o as [k|k|k|k|k t|k|k]; cbn [step] in H; destruct (thread_of s k) eqn:T; try discriminate; try contradiction;
    assert (NI : k <> i) by congruence.
  - injection H as <-. cbn [thread_of]. rewrite fupd_neq; [exact P|congruence].
  - destruct (Nat.ltb _ _); [discriminate|]. injection H as <-. cbn. rewrite fupd_neq; [exact P|congruence].
  - injection H as <-. cbn. rewrite fupd_neq; [exact P|congruence].
  - injection H as <-. cbn. rewrite fupd_neq; [exact P|congruence].
  - destruct (_ <? _)%Z; [|discriminate]. injection H as <-. apply Y; [exact NI|reflexivity].
  - destruct (stat s e); [discriminate| |]; injection H as <-; (apply Y; [exact NI|apply thread_write]).
Qed.
Lemma alive_run tp l s i : Forall notdie l -> alive s i -> alive (run tp s l) i.
Proof. intros F A. refine (run_ind tp (fun s => alive s i) notdie _ l s F A). intros s0 o s' N A0 E. exact (alive_step tp s0 o s' i N A0 E). Qed.
Lemma proposed_run tp i : forall l s, Forall notdie l -> thread_of s i = Propose -> In (Timestamp i) l -> alive (run tp s l) i.
Proof.
  induction l as [|o l IH]; intros s F P X; [contradiction|]. inversion F as [|? ? N F1]; subst. cbn [run].
  assert (D : {o = Timestamp i} + {o <> Timestamp i}).
  { destruct o as [k|k|k|k|k t|k|k]; try (right; discriminate). destruct (Nat.eq_dec k i) as [->|ne]; [left; reflexivity|right; congruence]. }
  destruct D as [->|ne].
  - cbn [step]. rewrite P. cbv zeta. apply alive_run; [exact F1|]. unfold alive. cbn [thread_of]. rewrite fupd_eq. destruct (Nat.eqb _ _); split; discriminate.
  - destruct X as [X|X]; [congruence|]. destruct (step tp s o) as [s'|] eqn:E; [|apply IH; assumption].
    apply IH; [exact F1|exact (fresh_step tp s o s' i N ne P E)|exact X].
Qed.
Lemma sum_zero n f : (forall i, i < n -> f i = 0) -> sum n f = 0.
Proof. induction n as [|n IH]; intros H; [reflexivity|]. cbn [sum]. rewrite H by lia. apply IH. intros i L. apply H. lia. Qed.
(** Threads hold grants for federates of the federation only. *)
Lemma walk_targets tp s i l (Q : nat -> Prop) : Forall Q l -> forall e t r, thread_of (walk tp s i l) i = Walk e t r -> Q e /\ Forall Q r.
Proof.
  revert s. induction l as [|e l IH]; intros s F e' t r X; cbn [walk] in X.
  - cbn in X. rewrite fupd_eq in X. discriminate.
  - inversion F as [|? ? Q1 F1]; subst. destruct (grant tp s e) as [t'|]; [|exact (IH s F1 e' t r X)].
    destruct (stat s e); [|exact (IH _ F1 e' t r X)|exact (IH s F1 e' t r X)].
    cbn in X. rewrite fupd_eq in X. injection X as -> -> ->. split; assumption.
Qed.
Definition aims (tp : topology) (s : state) : Prop := forall i e t r, thread_of s i = Walk e t r -> e < size tp /\ Forall (fun x => x < size tp) r.
Lemma aims_step tp s o s' : inside tp -> within tp o -> aims tp s -> step tp s o = Some s' -> aims tp s'.
Proof.
  intros WF W A H.
  assert (X : forall k t, (forall e x r, t <> Walk e x r) -> forall i e x r, fupd (thread_of s) k t i = Walk e x r -> e < size tp /\ Forall (fun y => y < size tp) r).
  { intros k t NT i e x r E. destruct (Nat.eq_dec i k) as [->|ne]; [rewrite fupd_eq in E; exfalso; exact (NT e x r E)|rewrite fupd_neq in E by exact ne; exact (A i e x r E)]. }
  assert (Y : forall x k l, thread_of x = thread_of s -> Forall (fun y => y < size tp) l -> aims tp (walk tp x k l)).
  { intros x k l E F i e t r T. destruct (Nat.eq_dec i k) as [->|ne].
    - exact (walk_targets tp x k l _ F e t r T).
    - destruct (walk_frame tp x k l) as (_ & _ & _ & FR). rewrite (FR i ne), E in T. exact (A i e t r T). }
  destruct o as [k|k|k|k|k t|k|k]; cbn [step] in H; cbn [within] in W; destruct (thread_of s k) eqn:T; try discriminate.
  - cbv zeta in H. remember (Nat.eqb (S (count s)) (size tp)) as b. injection H as <-. unfold aims. cbn [thread_of]. apply X. intros e x r. destruct b; discriminate.
  - destruct (Nat.ltb _ _); [discriminate|]. injection H as <-. unfold aims. cbn. apply X. discriminate.
  - injection H as <-. unfold aims. cbn. apply X. discriminate.
  - injection H as <-. unfold aims. cbn. apply X. discriminate.
  - destruct (_ <? _)%Z; [|discriminate]. injection H as <-. apply Y; [reflexivity|]. apply Forall_forall. intros e E. exact (WF k e W E).
  - destruct (A k e t rest T) as [_ F]. destruct (stat s e); [discriminate| |]; injection H as <-; (apply Y; [apply thread_write|exact F]).
  - injection H as <-. unfold aims. cbn. apply X. discriminate.
  - injection H as <-. unfold aims. cbn. apply X. discriminate.
Qed.
Lemma aims_run tp l : inside tp -> Forall (within tp) l -> aims tp (run tp init l).
Proof.
  intros WF W. refine (run_ind tp (aims tp) (within tp) _ l init W _).
  - intros s o s' WO A E. exact (aims_step tp s o s' WF WO A E).
  - intros i e t r X. discriminate.
Qed.

Lemma all_start tp l : Forall (within tp) l -> Forall notdie l -> (forall i, i < size tp -> In (Timestamp i) l) -> inside tp ->
  quiet tp (run tp init l) -> forall i, i < size tp -> thread_of (run tp init l) i = Listen /\ started (sent (run tp init l) i).
Proof.
  intros W N TS WF Q. pose proof (aims_run tp l WF W) as WE. set (s := run tp init l) in *. pose proof (inv_run tp l init W (inv_init tp)) as IV. fold s in IV.
  assert (AL : forall i, i < size tp -> alive s i) by (intros i L; apply proposed_run; [exact N|reflexivity|apply TS, L]).
  assert (CN : count s = size tp).
  { pose proof (inv_count tp s IV) as D. rewrite sum_zero in D; [lia|]. intros i L. destruct (AL i L) as [A1 A2]. unfold early. destruct (thread_of s i); congruence. }
  assert (NP : forall i, i < size tp -> stat s i <> Pending).
  { intros i L P. destruct (Q i L) as (Q1 & Q2 & Q3 & _). cbn [step] in Q1, Q2, Q3. destruct (AL i L) as [A1 A2]. pose proof (inv_place tp s IV i) as A. unfold place in A.
    destruct (thread_of s i); try congruence; try (destruct A as [A _]; congruence).
    rewrite CN, Nat.ltb_irrefl in Q1. discriminate. }
  intros i L. pose proof (inv_place tp s IV i) as A. unfold place in A. destruct (AL i L) as [A1 A2]. destruct (Q i L) as (_ & _ & _ & Q4). cbn [step] in Q4.
  destruct (thread_of s i) eqn:T; try congruence; try (destruct A as [A _]; exfalso; exact (NP i L A)).
  - split; [reflexivity|]. apply A.
  - exfalso. destruct (WE i e t rest T) as [WE' _]. destruct (stat s e) eqn:SE; try discriminate. exact (NP e WE' SE).
Qed.

(** ** The threads come to rest *)
Definition weight (t : thread) : nat := match t with AwaitAll => 3 | SendStart => 2 | MarkSent => 1 | Walk _ _ r => S (length r) | _ => 0 end.
Definition work (tp : topology) (s : state) : nat := sum (size tp) (fun i => weight (thread_of s i)).
Lemma own_step tp s o s' : own o -> within tp o -> step tp s o = Some s' -> work tp s' < work tp s.
Proof.
  intros OW W H. unfold work.
  assert (X : forall k t, k < size tp -> weight t < weight (thread_of s k) -> sum (size tp) (fun i => weight (fupd (thread_of s) k t i)) < sum (size tp) (fun i => weight (thread_of s i))).
  { intros k t L D. apply (sum_lt (size tp) _ _ k L); [intros j ne; rewrite fupd_neq by exact ne; reflexivity|rewrite fupd_eq; exact D]. }
  destruct o as [k|k|k|k|k t|k|k]; try contradiction; cbn [step] in H; cbn [within] in W; destruct (thread_of s k) eqn:T; try discriminate.
  - destruct (Nat.ltb _ _); [discriminate|]. injection H as <-. cbn. apply X; [exact W|rewrite T; cbn; lia].
  - injection H as <-. cbn. apply X; [exact W|rewrite T; cbn; lia].
  - injection H as <-. cbn. apply X; [exact W|rewrite T; cbn; lia].
  - assert (Y : forall x, thread_of x = thread_of s -> sum (size tp) (fun i => weight (thread_of (walk tp x k rest) i)) < sum (size tp) (fun i => weight (thread_of s i))).
    { intros x E. apply (sum_lt (size tp) _ _ k W).
      - intros j ne. destruct (walk_frame tp x k rest) as (_ & _ & _ & FR). rewrite (FR j ne), E. reflexivity.
      - rewrite T. cbn [weight]. destruct (walk_thread tp k rest x) as [-> |(e' & t' & r & -> & LL)]; cbn [weight]; lia. }
    destruct (stat s e); [discriminate| |]; injection H as <-; (apply Y; apply thread_write).
Qed.
Lemma own_bounded tp : forall l s, Forall own l -> Forall (within tp) l -> possible tp s l -> length l <= work tp s.
Proof.
  induction l as [|o l IH]; intros s O W P; [cbn; lia|]. inversion O as [|? ? O1 O2]; inversion W as [|? ? W1 W2]; subst. cbn [possible] in P.
  destruct (step tp s o) as [s'|] eqn:E; [|contradiction]. pose proof (own_step tp s o s' O1 W1 E). specialize (IH s' O2 W2 P). cbn [length]. lia.
Qed.

(** ** Grants in order *)
Record orderly (tp : topology) (s : state) : Prop := {
  ord_stat : forall i, i < size tp -> stat s i <> Pending;
  ord_thread : forall i, i < size tp -> thread_of s i = Listen \/ thread_of s i = Gone;
  ord_last : forall e x, In (Grant x) (sent s e) -> tag_le x (last s e);
  ord_sent : forall e, ordered (sent s e) }.
Lemma orderly_walk tp i : forall l s, Forall (fun e => e < size tp) l -> orderly tp s -> orderly tp (walk tp s i l).
Proof.
  induction l as [|e l IH]; intros s F OD; cbn [walk].
  - destruct OD as [A B C D]. constructor; try assumption. intros j J. cbn. fc j i; [left; reflexivity|apply B, J].
  - inversion F as [|? ? L F1]; subst. destruct (grant tp s e) as [t|] eqn:G; [|apply IH; assumption].
    destruct (stat s e) eqn:SG; [exfalso; exact (ord_stat tp s OD e L SG)| |apply IH; assumption].
    apply IH; [exact F1|]. destruct OD as [A B C D]. pose proof (grant_later tp s e t G) as LT. unfold write_grant. rewrite SG.
    constructor; cbn [stat thread_of last sent set_last send].
    + exact A.
    + exact B.
    + intros e' x X. fc e' e; [|apply C, X]. destruct X as [[= <-]|X]; [apply tag_le_refl|]. apply (tag_le_trans _ (last s e)); [apply C, X|apply tag_lt_le, LT].
    + intros e'. fc e' e; [|apply D]. cbn [ordered]. split; [|apply D]. intros x X. exact (tag_le_lt_trans _ _ _ (C e x X) LT).
Qed.
Lemma orderly_step tp s o s' : inside tp -> within tp o -> orderly tp s -> step tp s o = Some s' -> orderly tp s'.
Proof.
  intros WF W [A B C D] H.
  destruct o as [k|k|k|k|k t|k|k]; cbn [step] in H; cbn [within] in W; destruct (B k W) as [T|T]; rewrite T in H; try discriminate.
  - destruct (_ <? _)%Z; [|discriminate]. injection H as <-. apply orderly_walk; [apply Forall_forall; intros e E; exact (WF k e W E)|]. constructor; assumption.
  - injection H as <-. constructor; cbn [stat thread_of last sent set_thread set_stat]; [| |exact C|exact D].
    + intros j J. fc j k; [discriminate|apply A, J].
    + intros j J. fc j k; [right; reflexivity|apply B, J].
Qed.
Lemma orderly_run tp l s : inside tp -> Forall (within tp) l -> orderly tp s -> orderly tp (run tp s l).
Proof. intros WF. apply run_ind. intros s0 o s' W I0 E. exact (orderly_step tp s0 o s' WF W I0 E). Qed.

(** Before anybody has completed a tag nothing is granted. *)
Definition quiet_start (s : state) : Prop := (forall e x, ~ In (Grant x) (sent s e)) /\ (forall i e t r, thread_of s i <> Walk e t r).
Lemma quiet_start_step tp s o s' : notltc o -> quiet_start s -> step tp s o = Some s' -> quiet_start s'.
Proof.
  intros N [A B] H.
  assert (X : forall k t, (forall e x r, t <> Walk e x r) -> forall i e x r, fupd (thread_of s) k t i <> Walk e x r).
  { intros k t NT i e x r. destruct (Nat.eq_dec i k) as [->|ne]; [rewrite fupd_eq; apply NT|rewrite fupd_neq by exact ne; apply B]. }
  destruct o as [k|k|k|k|k t|k|k]; try contradiction; cbn [step] in H; destruct (thread_of s k) eqn:T; try discriminate.
  - cbv zeta in H. remember (Nat.eqb (S (count s)) (size tp)) as b. injection H as <-. split; cbn [thread_of sent]; [exact A|]. apply X. intros e x r. destruct b; discriminate.
  - destruct (Nat.ltb _ _); [discriminate|]. injection H as <-. split; cbn; [exact A|]. apply X. discriminate.
  - injection H as <-. split; cbn; [|apply X; discriminate]. intros e x Y. fc e k; [|exact (A e x Y)]. destruct Y as [Y|Y]; [discriminate|exact (A k x Y)].
  - injection H as <-. split; cbn; [exact A|]. apply X. discriminate.
  - exfalso. exact (B k e t rest T).
  - injection H as <-. split; cbn; [exact A|]. apply X. discriminate.
  - injection H as <-. split; cbn; [exact A|]. apply X. discriminate.
Qed.
Lemma ordered_none l : (forall x, ~ In (Grant x) l) -> ordered l.
Proof. induction l as [|[|t] l IH]; intros H; cbn [ordered]; [exact Logic.I| |]. - apply IH. intros x X. apply (H x). right. exact X. - exfalso. apply (H t). left. reflexivity. Qed.
Lemma in_order tp l1 l2 : inside tp -> Forall (within tp) l1 -> Forall notltc l1 -> Forall (within tp) l2 ->
  (forall i, i < size tp -> stat (run tp init l1) i <> Pending) -> forall e, ordered (sent (run tp init (l1 ++ l2)) e).
Proof.
  intros WF W1 N W2 P. rewrite run_app. apply ord_sent with (tp := tp). apply orderly_run; [exact WF|exact W2|].
  assert (Q : quiet_start (run tp init l1)).
  { refine (run_ind tp quiet_start notltc _ l1 init N _); [intros s o s' N0 Q0 E; exact (quiet_start_step tp s o s' N0 Q0 E)|]. split; [intros e x X; exact X|discriminate]. }
  pose proof (inv_run tp l1 init W1 (inv_init tp)) as IV. destruct Q as [Q1 Q2]. constructor.
  - exact P.
  - intros i L. pose proof (inv_place tp _ IV i) as A. unfold place in A. specialize (P i L). specialize (Q2 i).
    destruct (thread_of _ i); try (destruct A as [A _]; congruence); [left; reflexivity|right; reflexivity].
  - intros e x X. exfalso. exact (Q1 e x X).
  - intros e. apply ordered_none, Q1.
Qed.

(** ** A federate that dies before it has proposed a start time *)
Lemma early_stays tp s o s' k : thread_of s k = Gone -> sent s k = [] -> inv tp s -> step tp s o = Some s' -> thread_of s' k = Gone /\ sent s' k = [].
Proof.
  intros G S0 IV H.
  assert (SK : stat s k = NotConnected) by (pose proof (inv_place tp s IV k) as A; unfold place in A; rewrite G in A; apply A).
  assert (Y : forall x i l, i <> k -> thread_of x k = Gone -> sent x k = [] -> stat x k = NotConnected -> thread_of (walk tp x i l) k = Gone /\ sent (walk tp x i l) k = []).
  { intros x i l ne A B C. refine (proj1 (walk_ind tp i (fun x => (thread_of x k = Gone /\ sent x k = []) /\ stat x k = NotConnected) _ _ _ l x (conj (conj A B) C))).
    - intros x0 e t [[A0 B0] C0] _ SG. unfold write_grant. rewrite SG. cbn. rewrite fupd_neq by congruence. repeat split; assumption.
    - intros x0 [[A0 B0] C0]. cbn. rewrite fupd_neq by congruence. repeat split; assumption.
    - intros x0 e t r [[A0 B0] C0] _ _. cbn. rewrite fupd_neq by congruence. repeat split; assumption. }
  destruct o as [i|i|i|i|i t|i|i]; cbn [step] in H; destruct (thread_of s i) eqn:T; try discriminate; assert (NI : i <> k) by congruence.
  - injection H as <-. cbn [thread_of sent]. rewrite fupd_neq by congruence. split; assumption.
  - destruct (Nat.ltb _ _); [discriminate|]. injection H as <-. cbn. rewrite fupd_neq by congruence. split; assumption.
  - injection H as <-. cbn. rewrite !fupd_neq by congruence. split; assumption.
  - injection H as <-. cbn. rewrite fupd_neq by congruence. split; assumption.
  - destruct (_ <? _)%Z; [|discriminate]. injection H as <-. apply Y; assumption.
  - destruct (stat s e) eqn:SE; [discriminate| |]; injection H as <-; unfold write_grant; rewrite SE; apply Y; try assumption.
    cbn. rewrite fupd_neq by congruence. exact S0.
  - injection H as <-. cbn. rewrite fupd_neq by congruence. split; assumption.
  - injection H as <-. cbn. rewrite fupd_neq by congruence. split; assumption.
Qed.
Lemma nobody_starts tp l1 l2 k : Forall (within tp) l1 -> Forall (within tp) l2 -> k < size tp -> thread_of (run tp init l1) k = Propose ->
  forall i, sent (run tp init (l1 ++ Die k :: l2)) i = [].
Proof.
  intros W1 W2 L P i. rewrite run_app. set (s := run tp init l1) in *. pose proof (inv_run tp l1 init W1 (inv_init tp)) as IV. fold s in IV.
  cbn [run step]. rewrite P. set (s' := set_thread k Gone (set_stat k NotConnected s)).
  assert (IV' : inv tp s') by (apply (inv_step tp s (Die k) s'); [exact L|exact IV|cbn [step]; rewrite P; reflexivity]).
  assert (E : thread_of s' k = Gone /\ sent s' k = []).
  { pose proof (inv_place tp s IV k) as A. unfold place in A. rewrite P in A. cbn. rewrite fupd_eq. split; [reflexivity|apply A]. }
  assert (X : (thread_of (run tp s' l2) k = Gone /\ sent (run tp s' l2) k = []) /\ inv tp (run tp s' l2)).
  { refine (run_ind tp (fun x => (thread_of x k = Gone /\ sent x k = []) /\ inv tp x) (within tp) _ l2 s' W2 (conj E IV')).
    intros x o x' W [[A B] C] ST. split; [exact (early_stays tp x o x' k A B C ST)|exact (inv_step tp x o x' W C ST)]. }
  destruct X as [[A B] C]. set (z := run tp s' l2) in *.
  assert (LT : count z < size tp).
  { pose proof (inv_count tp z C) as D. pose proof (sum_ge (size tp) (early z) k L) as GE. unfold early at 1 in GE. rewrite A, B in GE. lia. }
  pose proof (inv_place tp z C i) as PI. unfold place in PI. destruct (thread_of z i); try apply PI; try (destruct PI as (_ & _ & PI); lia).
  destruct PI as [_ [PI|[_ PI]]]; [exact PI|lia].
Qed.

(** ** No grant is lost *)
Definition lastok (s : state) : Prop := forall e, last s e = NEVER_TAG \/ In (Grant (last s e)) (sent s e).
Definition settled (tp : topology) (s : state) (e : nat) : Prop :=
  tag_le (min_completed s (ups tp e)) NEVER_TAG \/ exists t, tag_le (min_completed s (ups tp e)) t /\ In (Grant t) (sent s e).
Definition held (tp : topology) (s : state) (i e : nat) : Prop :=
  match thread_of s i with Walk e' t r => (e' = e /\ tag_le (min_completed s (ups tp e)) t) \/ In e r | _ => False end.
Lemma min_same s s' l : (forall u, stat s' u = NotConnected <-> stat s u = NotConnected) -> (forall u, In u l -> completed s' u = completed s u) -> min_completed s' l = min_completed s l.
Proof.
  intros E. induction l as [|u l IH]; intros C; [reflexivity|]. cbn [min_completed fold_right]. fold (min_completed s l) (min_completed s' l).
  rewrite IH by (intros v V; apply C; right; exact V). rewrite (C u (or_introl eq_refl)). specialize (E u).
  destruct (stat s' u), (stat s u); try reflexivity; exfalso; destruct E as [E1 E2]; first [specialize (E1 eq_refl); discriminate|specialize (E2 eq_refl); discriminate].
Qed.
Lemma min_write e t s l : min_completed (write_grant e t s) l = min_completed s l.
Proof. apply min_same; intros u; unfold write_grant; destruct (stat s e); cbn; tauto. Qed.
Lemma min_walk tp s i l0 l : min_completed (walk tp s i l0) l = min_completed s l.
Proof. destruct (walk_frame tp s i l0) as (A & _ & C & _). apply min_same; intros u; rewrite ?A, ?C; [tauto|reflexivity]. Qed.
Lemma sent_write e t s e' m : In m (sent s e') -> In m (sent (write_grant e t s) e').
Proof. intros X. unfold write_grant. destruct (stat s e); cbn; try exact X. fc e' e; [right|]; exact X. Qed.
Lemma lastok_write e t s : lastok s -> lastok (write_grant e t s).
Proof. intros A e'. unfold write_grant. destruct (stat s e); cbn; try apply A. fc e' e; [right; left; reflexivity|apply A]. Qed.
Lemma lastok_walk tp i l s : lastok s -> lastok (walk tp s i l).
Proof. apply (walk_ind tp i lastok); intros; [apply lastok_write|..]; assumption. Qed.
Lemma settled_write tp e t s e' : settled tp s e' -> settled tp (write_grant e t s) e'.
Proof. unfold settled. rewrite min_write. intros [A|(x & A & B)]; [left; exact A|right; exists x; split; [exact A|apply sent_write, B]]. Qed.
Lemma settled_walk tp i e l s : settled tp s e -> settled tp (walk tp s i l) e.
Proof. apply (walk_ind tp i (fun s => settled tp s e)); intros; [apply settled_write|..]; assumption. Qed.
Lemma walk_settles tp i : forall l s, (forall e, stat s e <> NotConnected) -> lastok s -> forall e, In e l -> settled tp (walk tp s i l) e \/ held tp (walk tp s i l) i e.
Proof.
  induction l as [|e0 l IH]; intros s ND LO e X; [contradiction|]. cbn [walk].
  destruct (grant tp s e0) as [t|] eqn:G.
  - destruct (stat s e0) eqn:SE; [|destruct X as [->|X]|exfalso; exact (ND e0 SE)].
    + right. unfold held. cbn [thread_of set_thread]. rewrite fupd_eq. destruct X as [->|X]; [left; split; [reflexivity|]|right; exact X].
      unfold grant in G. destruct (_ <? _)%Z; [|discriminate]. injection G as <-. apply tag_le_refl.
    + left. apply settled_walk. right. exists t. rewrite min_write. split.
      * unfold grant in G. destruct (_ <? _)%Z; [|discriminate]. injection G as <-. apply tag_le_refl.
      * unfold write_grant. rewrite SE. cbn. rewrite fupd_eq. left. reflexivity.
    + apply IH; [|apply lastok_write, LO|exact X]. intros y. unfold write_grant. rewrite SE. cbn. apply ND.
  - destruct X as [->|X]; [|apply IH; assumption]. left. apply settled_walk. unfold grant in G.
    destruct (0 <? _)%Z eqn:C; [discriminate|]. apply Z.ltb_ge in C. apply tag_compare_le in C.
    destruct (LO e) as [E|E]; [left; rewrite <- E; exact C|right; exists (last s e); split; assumption].
Qed.
Record kept (tp : topology) (s : state) : Prop := {
  kept_stat : forall i, stat s i <> NotConnected;
  kept_last : lastok s;
  kept_all : forall e, ups tp e <> [] -> settled tp s e \/ exists i, held tp s i e }.
Lemma kept_walk tp s i l : (forall i, stat s i <> NotConnected) -> lastok s ->
  (forall e, ups tp e <> [] -> In e l \/ settled tp s e \/ exists j, j <> i /\ held tp s j e) -> kept tp (walk tp s i l).
Proof.
  intros ND LO A. constructor.
  - destruct (walk_frame tp s i l) as (E & _). rewrite E. exact ND.
  - apply lastok_walk, LO.
  - intros e N. destruct (A e N) as [X|[X|(j & J & X)]].
    + destruct (walk_settles tp i l s ND LO e X) as [Y|Y]; [left; exact Y|right; exists i; exact Y].
    + left. apply settled_walk, X.
    + right. exists j. unfold held in *. destruct (walk_frame tp s i l) as (_ & _ & _ & F). rewrite (F j J), min_walk. exact X.
Qed.
Lemma kept_thread tp s s' i : thread_of s' = fupd (thread_of s) i (thread_of s' i) -> (forall e t r, thread_of s i <> Walk e t r) ->
  (forall u, stat s' u = NotConnected <-> stat s u = NotConnected) -> completed s' = completed s -> last s' = last s -> (forall e t, In (Grant t) (sent s e) -> In (Grant t) (sent s' e)) ->
  kept tp s -> kept tp s'.
Proof.
  intros ET NW ES EC EL SE [A B C]. constructor.
  - intros j X. apply (A j), ES, X.
  - intros e. rewrite EL. destruct (B e) as [Y|Y]; [left; exact Y|right; apply SE, Y].
  - assert (M : forall l, min_completed s' l = min_completed s l) by (intros l; apply min_same; [exact ES|intros u _; rewrite EC; reflexivity]).
    intros e N. destruct (C e N) as [[X|(t & X & Y)]|(j & X)].
    + left; left. rewrite M. exact X.
    + left; right. exists t. rewrite M. split; [exact X|apply SE, Y].
    + right. exists j. unfold held in *. rewrite M, ET. destruct (Nat.eq_dec j i) as [->|ne]; [|rewrite fupd_neq by exact ne; exact X].
      specialize (NW). destruct (thread_of s i) eqn:T; try contradiction. exfalso. exact (NW _ _ _ eq_refl).
Qed.
Lemma kept_step tp s o s' : linked tp -> notdie o -> kept tp s -> step tp s o = Some s' -> kept tp s'.
Proof.
  intros LK N K H. destruct o as [k|k|k|k|k t|k|k]; try contradiction; cbn [step] in H; destruct (thread_of s k) eqn:T; try discriminate.
  - cbv zeta in H. remember (Nat.eqb (S (count s)) (size tp)) as b. injection H as <-.
    apply (kept_thread tp s _ k); cbn [thread_of stat completed last sent]; try reflexivity; try assumption; try tauto; [rewrite fupd_eq; reflexivity|rewrite T; discriminate].
  - destruct (Nat.ltb _ _); [discriminate|]. injection H as <-.
    apply (kept_thread tp s _ k); cbn [thread_of stat completed last sent set_thread]; try reflexivity; try assumption; try tauto; [rewrite fupd_eq; reflexivity|rewrite T; discriminate].
  - injection H as <-. apply (kept_thread tp s _ k); cbn [thread_of stat completed last sent set_thread send]; try reflexivity; try assumption; try tauto; [rewrite fupd_eq; reflexivity|rewrite T; discriminate|].
    intros e t X. fc e k; [right|]; exact X.
  - injection H as <-. apply (kept_thread tp s _ k); cbn [thread_of stat completed last sent set_thread set_stat]; try reflexivity; try assumption; try tauto; [rewrite fupd_eq; reflexivity|rewrite T; discriminate|].
    intros u. fc u k; [|tauto]. split; intros X; [discriminate|exfalso; exact (kept_stat tp s K k X)].
  - destruct (_ <? _)%Z; [|discriminate]. injection H as <-. destruct K as [A B C]. apply kept_walk; [exact A|exact B|].
    intros e NE. destruct (in_dec Nat.eq_dec k (ups tp e)) as [U|U]; [left; apply LK, U|right].
    assert (M : min_completed (mkState (thread_of s) (stat s) (count s) (fupd (completed s) k t) (last s) (sent s)) (ups tp e) = min_completed s (ups tp e)).
    { apply min_same; [tauto|]. intros u V. cbn. apply fupd_neq. intros ->. contradiction. }
    unfold settled, held. rewrite M. cbn [sent thread_of]. destruct (C e NE) as [X|(j & X)]; [left; exact X|right; exists j; split; [|exact X]].
    intros ->. unfold held in X. rewrite T in X. exact X.
  - assert (SG : stat s e <> Pending -> stat s e = Granted) by (pose proof (kept_stat tp s K e); destruct (stat s e); congruence).
    destruct (stat s e) eqn:SE; [discriminate| |exfalso; exact (kept_stat tp s K e SE)]. injection H as <-. destruct K as [A B C].
    apply kept_walk; [intros j; unfold write_grant; rewrite SE; exact (A j)|apply lastok_write, B|].
    intros e' NE. destruct (C e' NE) as [X|(j & X)]; [right; left; apply settled_write, X|].
    destruct (Nat.eq_dec j k) as [->|ne].
    + unfold held in X. rewrite T in X. destruct X as [[-> X]|X]; [|left; exact X]. right; left; right. exists t. rewrite min_write. split; [exact X|].
      unfold write_grant. rewrite SE. cbn. rewrite fupd_eq. left. reflexivity.
    + right; right. exists j. split; [exact ne|]. unfold held in *. rewrite thread_write, min_write. exact X.
Qed.
Lemma kept_run tp l : linked tp -> Forall notdie l -> kept tp (run tp init l).
Proof.
  intros LK N. refine (run_ind tp (kept tp) notdie _ l init N _); [intros s o s' N0 K E; exact (kept_step tp s o s' LK N0 K E)|]. constructor.
  - discriminate.
  - intros e. left. reflexivity.
  - intros e NE. left; left. destruct (ups tp e) as [|u l0] eqn:U; [congruence|]. destruct (min_completed_le init (u :: l0) u (or_introl eq_refl)) as [X|X]; [discriminate|exact X].
Qed.
Lemma min_ge s l t : tag_le t FOREVER_TAG -> (forall u, In u l -> tag_le t (completed s u)) -> tag_le t (min_completed s l).
Proof.
  intros F. induction l as [|u l IH]; intros A; [exact F|]. cbn [min_completed fold_right]. fold (min_completed s l).
  assert (X : tag_le t (min_completed s l)) by (apply IH; intros v V; apply A; right; exact V).
  destruct (stat s u); [| |exact X]; (destruct (_ <? _)%Z; [apply A; left; reflexivity|exact X]).
Qed.
Lemma all_granted tp l e t : linked tp -> Forall (within tp) l -> Forall notdie l -> ups tp e <> [] ->
  (forall i, i < size tp -> forall e' t' r, thread_of (run tp init l) i <> Walk e' t' r) ->
  tag_lt NEVER_TAG t -> tag_le t FOREVER_TAG -> (forall u, In u (ups tp e) -> tag_le t (completed (run tp init l) u)) ->
  exists t', tag_le t t' /\ In (Grant t') (sent (run tp init l) e).
Proof.
  intros LK W N NE NW LO HI A. pose proof (kept_run tp l LK N) as [_ _ C]. pose proof (min_ge _ _ t HI A) as M.
  destruct (C e NE) as [[X|(x & X & Y)]|(i & X)].
  - exfalso. apply (tag_lt_irrefl t). apply (tag_le_lt_trans _ NEVER_TAG); [|exact LO]. exact (tag_le_trans _ _ _ M X).
  - exists x. split; [exact (tag_le_trans _ _ _ M X)|exact Y].
  - exfalso. unfold held in X. destruct (thread_of (run tp init l) i) eqn:T; try contradiction.
    destruct (Nat.lt_ge_cases i (size tp)) as [L|L]; [exact (NW i L _ _ _ T)|].
    assert (P : thread_of (run tp init l) i = Propose).
    { refine (run_ind tp (fun s => thread_of s i = Propose) (fun o => within tp o /\ notdie o) _ l init _ eq_refl).
      - intros s o s' [W0 N0] P E. refine (fresh_step tp s o s' i N0 _ P E). intros ->. cbn in W0. lia.
      - apply Forall_forall. intros o O. split; [exact (proj1 (Forall_forall _ _) W o O)|exact (proj1 (Forall_forall _ _) N o O)]. }
    congruence.
Qed.
