(** Admission of federates: property C48. *)
From Verif Require Import Base CText Admission.
From Coq Require Import String.
Open Scope Z_scope.
Notation length := List.length.

(** The federation identifiers that the coordinator takes for its own. *)
Definition is_prefix (p s : text) : Prop := exists r, s = p ++ r.
Definition id_accepted (mine received : text) : Prop :=
  (~ In 0 received /\ is_prefix received mine) \/ (exists r, received = mine ++ 0 :: r).

Lemma strn_prefix n : forall a b, length b = n -> (strn_eqb n a b = true <-> is_prefix b a).
Proof.
  induction n as [|n IH]; intros a b L; cbn [strn_eqb].
  - destruct b; [|discriminate]. split; [exists a; reflexivity|auto].
  - destruct b as [|y b]; [discriminate|]. injection L as L. destruct a as [|x a].
    + split; [discriminate|]. intros (r & E). discriminate.
    + rewrite andb_true_iff, Z.eqb_eq, IH by exact L. split.
      * intros [-> (r & ->)]. exists r. reflexivity.
      * intros (r & E). injection E as -> ->. split; [reflexivity|exists r; reflexivity].
Qed.
Lemma strn_full n : forall a b, (length b < n)%nat -> (strn_eqb n a b = true <-> a = b).
Proof.
  induction n as [|n IH]; intros a b L; [lia|]. cbn [strn_eqb]. destruct a as [|x a], b as [|y b]; try (split; [discriminate|congruence]); [split; auto|].
  cbn [length] in L. rewrite andb_true_iff, Z.eqb_eq, IH by lia. split; [intros [-> ->]; reflexivity|intros [= -> ->]; auto].
Qed.
Lemma c_string_no b : ~ In 0 b -> c_string b = b.
Proof. induction b as [|c b IH]; intros H; [reflexivity|]. cbn [c_string]. destruct (Z.eqb_spec c 0); [exfalso; apply H; left; auto|]. rewrite IH; [reflexivity|]. intros K. apply H. now right. Qed.
Lemma c_string_has b : In 0 b -> exists r, b = c_string b ++ 0 :: r.
Proof.
  induction b as [|c b IH]; intros H; [destruct H|]. cbn [c_string]. destruct (Z.eqb_spec c 0) as [->|N]; [exists b; reflexivity|].
  destruct H as [H|H]; [congruence|]. destruct (IH H) as (r & E). exists r. cbn. congruence.
Qed.
Lemma c_string_cut s r : ~ In 0 s -> c_string (s ++ 0 :: r) = s.
Proof. induction s as [|c s IH]; intros H; [reflexivity|]. cbn [app c_string]. destruct (Z.eqb_spec c 0); [exfalso; apply H; left; auto|]. rewrite IH; [reflexivity|]. intros K. apply H. now right. Qed.

Lemma id_accepted_spec mine b : ~ In 0 mine -> (strn_eqb (length b) mine (c_string b) = true <-> id_accepted mine b).
Proof.
  intros Hm. unfold id_accepted. destruct (in_dec Z.eq_dec 0 b) as [I|I].
  - destruct (c_string_has b I) as (r & E). rewrite strn_full by (rewrite E at 2; rewrite app_length; cbn; lia).
    split; [intros ->; right; exists r; exact E|]. intros [[H _]|(r' & E')]; [contradiction|]. rewrite E'. symmetry. now apply c_string_cut.
  - rewrite (c_string_no b I). rewrite strn_prefix by reflexivity. split; [auto|]. intros [[_ H]|(r & E)]; [exact H|]. exfalso. apply I. rewrite E. apply in_or_app. right. now left.
Qed.

(** C48: exactly when a federate is admitted, and under which identifier. *)
Theorem C48_admitted r m acked i : ~ In 0 (federation_id r) ->
  (snd (check_fed_id r m acked) = Ack i <->
   m_type m = MSG_TYPE_FED_IDS /\ m_fed m = i /\ (i < nodes r)%nat /\ connected r i = false /\ acked = true /\
   exists b, m_id m = Some b /\ id_accepted (federation_id r) b).
Proof.
  intros Hm. unfold check_fed_id. destruct (Z.eqb_spec (m_type m) MSG_TYPE_FED_IDS) as [T|T]; cbn [negb].
  2:{ split; [discriminate|]. intros (A & _). contradiction. }
  destruct (m_id m) as [b|]; [|split; [discriminate|intros (_ & _ & _ & _ & _ & b & E & _); discriminate]].
  pose proof (id_accepted_spec (federation_id r) b Hm) as S1. destruct (strn_eqb (length b) (federation_id r) (c_string b)); cbn [negb].
  - destruct (Nat.leb_spec (nodes r) (m_fed m)) as [L|L].
    + split; [discriminate|]. intros (_ & <- & H & _). lia.
    + destruct (connected r (m_fed m)) eqn:C.
      * split; [discriminate|]. intros (_ & <- & _ & H & _). congruence.
      * destruct acked; cbn [snd].
        -- split; [intros [= <-]|intros (_ & <- & _); reflexivity]. repeat (split; [auto|]). exists b. split; [reflexivity|]. now apply S1.
        -- split; [discriminate|]. intros (_ & _ & _ & _ & H & _). discriminate.
  - split; [discriminate|]. intros (_ & _ & _ & _ & _ & b' & [= <-] & H). apply S1 in H. discriminate.
Qed.

(** C48: an identifier of the right length without NULs is accepted only if it is
    the coordinator's. *)
Theorem C48_exact mine b : length b = length mine -> ~ In 0 mine -> id_accepted mine b -> b = mine.
Proof.
  intros L Hm [[_ (r & E)]|(r & E)].
  - assert (r = []). { rewrite E, app_length in L. destruct r; [reflexivity|cbn in L; lia]. } subst r. now rewrite app_nil_r in E.
  - rewrite E, app_length in L. cbn in L. lia.
Qed.

(** ** Histories of attempts. *)
Definition attempts_only (os : list op) : Prop := Forall (fun o => match o with Leave _ => False | _ => True end) os.
Definition loop_ok (l : loop) : Prop :=
  NoDup (admitted l) /\ (length (admitted l) <= nodes (coord l))%nat /\
  (forall i, In i (admitted l) -> (i < nodes (coord l))%nat /\ connected (coord l) i = true).

Lemma check_shape r m acked : nodes (fst (check_fed_id r m acked)) = nodes r /\ federation_id (fst (check_fed_id r m acked)) = federation_id r /\
  (forall i, connected r i = true -> connected (fst (check_fed_id r m acked)) i = true) /\
  (forall i, snd (check_fed_id r m acked) = Ack i -> connected r i = false /\ (i < nodes r)%nat /\ connected (fst (check_fed_id r m acked)) i = true).
Proof.
  unfold check_fed_id. destruct (negb (m_type m =? MSG_TYPE_FED_IDS)); [cbn; repeat split; auto; discriminate|].
  destruct (m_id m) as [b|]; [|cbn; repeat split; auto; discriminate].
  destruct (negb _); [cbn; repeat split; auto; discriminate|]. destruct (Nat.leb_spec (nodes r) (m_fed m)); [cbn; repeat split; auto; discriminate|].
  destruct (connected r (m_fed m)) eqn:C; [cbn; repeat split; auto; discriminate|]. cbn [fst snd nodes federation_id set_connected].
  split; [reflexivity|]. split; [reflexivity|]. split.
  - intros i Hi. cbn. destruct (Nat.eqb i (m_fed m)); auto.
  - intros i H1. destruct acked; [|discriminate]. injection H1 as <-. split; [exact C|]. split; [assumption|]. cbn. now rewrite Nat.eqb_refl.
Qed.

Lemma check_ack r m acked i : snd (check_fed_id r m acked) = Ack i -> m_fed m = i.
Proof.
  unfold check_fed_id. destruct (negb _); [discriminate|]. destruct (m_id m) as [b|]; [|discriminate].
  destruct (negb _); [discriminate|]. destruct (nodes r <=? m_fed m)%nat; [discriminate|]. destruct (connected r (m_fed m)); [discriminate|].
  destruct acked; [|discriminate]. now intros [= ->].
Qed.
Lemma step_ok l m acked rest : loop_ok l -> loop_ok (fst (step l (Attempt m acked rest))).
Proof.
  intros (N & L & C). cbn [step]. destruct (Nat.leb_spec (nodes (coord l)) (length (admitted l))) as [F|F]; [now split|].
  destruct (check_fed_id (coord l) m acked) as [r a] eqn:E.
  pose proof (check_shape (coord l) m acked) as (S1 & S2 & S3 & S4). rewrite E in S1, S2, S3, S4. cbn [fst snd] in S1, S2, S3, S4.
  assert (Base : loop_ok (mkLoop r (admitted l))).
  { split; [exact N|]. cbn [coord admitted]. rewrite S1. split; [exact L|]. intros i Hi. destruct (C i Hi). split; auto. }
  destruct a as [i| |]; [|exact Base|exact Base]. destruct rest; [|exact Base]. cbn [fst].
  destruct (S4 i eq_refl) as (A1 & A2 & A3). unfold loop_ok. cbn [coord admitted]. rewrite S1. split; [|split].
  - constructor; [|exact N]. intros Hi. destruct (C i Hi). congruence.
  - cbn. lia.
  - intros j [<-|Hj]; [split; [lia|exact A3]|]. destruct (C j Hj). split; auto.
Qed.
Lemma run_ok os : forall l, attempts_only os -> loop_ok l -> loop_ok (run l os).
Proof.
  induction os as [|o os IH]; intros l A H; [exact H|]. inversion A as [|? ? Ho A']; subst. cbn [run]. apply IH; [exact A'|].
  destruct o as [m acked rest|i]; [now apply step_ok|destruct Ho].
Qed.

(** C48: as long as nobody leaves, the admitted federates have distinct
    identifiers in range, whatever is received. *)
Theorem C48_distinct id n os : attempts_only os ->
  let l := run (loop0 id n) os in
  NoDup (admitted l) /\ (length (admitted l) <= n)%nat /\ (forall i, In i (admitted l) -> (i < n)%nat).
Proof.
  intros A l. assert (H : loop_ok l). { apply run_ok; [exact A|]. split; [constructor|]. cbn. split; [lia|]. intros i []. }
  assert (Hn : nodes (coord l) = n).
  { subst l. clear H A. assert (G : forall os l, nodes (coord (run l os)) = nodes (coord l)).
    { induction os0 as [|o os0 IH]; intros l; [reflexivity|]. cbn [run]. rewrite IH. destruct o as [m acked rest|i]; cbn [step]; [|reflexivity].
      destruct (_ <=? _)%nat; [reflexivity|]. pose proof (check_shape (coord l) m acked) as (S1 & _).
      destruct (check_fed_id (coord l) m acked) as [r [i| |]]; cbn in *; auto. }
    now rewrite G. }
  destruct H as (H1 & H2 & H3). rewrite Hn in *. split; [exact H1|]. split; [exact H2|]. intros i Hi. now apply H3.
Qed.

Example C48_ex :
  let m := mkFirst MSG_TYPE_FED_IDS 1 (Some (lit "fed")) in
  let l := run (loop0 (lit "fed") 2) [Attempt m true true; Attempt m true true; Attempt (mkFirst MSG_TYPE_FED_IDS 0 (Some (lit "fxd"))) true true] in
  admitted l = [1%nat] /\
  snd (step l (Attempt m true true)) = Some (Reject FEDERATE_ID_IN_USE) /\
  snd (step l (Attempt (mkFirst MSG_TYPE_FED_IDS 0 (Some (lit "fed"))) true true)) = Some (Ack 0).
Proof. repeat split. Qed.

(** Findings.  A federate of a federation whose identifier is a proper prefix of
    the coordinator's - even the empty one - is admitted. *)
Theorem C48_prefix_refuted : exists mine b,
  b <> mine /\ ~ In 0 mine /\ snd (check_fed_id (rti0 mine 2) (mkFirst MSG_TYPE_FED_IDS 1 (Some b)) true) = Ack 1.
Proof.
  exists (lit "Federation7"), (lit "Federation"). split; [discriminate|]. split; [cbn; intuition discriminate|reflexivity].
Qed.

(** A federate that is acknowledged but whose next message is rejected keeps its
    identifier taken; if it tries again it is rejected for ever and the
    federation never starts. *)
Theorem C48_stuck_refuted id n i m os :
  (i < n)%nat -> m_type m = MSG_TYPE_FED_IDS -> m_fed m = i -> m_id m = Some id -> ~ In 0 id -> attempts_only os ->
  let l1 := fst (step (loop0 id n) (Attempt m true false)) in
  snd (step (loop0 id n) (Attempt m true false)) = Some (Ack i) /\
  ~ In i (admitted (run l1 os)) /\ (length (admitted (run l1 os)) < n)%nat /\
  (forall m', m_fed m' = i -> forall k, snd (step (run l1 os) (Attempt m' true true)) <> Some (Ack k)).
Proof.
  intros Hi T F I Hm A l1.
  assert (E : check_fed_id (rti0 id n) m true = (set_connected (rti0 id n) i true, Ack i)).
  { unfold check_fed_id. rewrite T, I, F. cbn [negb Z.eqb]. change (MSG_TYPE_FED_IDS =? MSG_TYPE_FED_IDS) with true. cbn [negb].
    assert (strn_eqb (length id) (federation_id (rti0 id n)) (c_string id) = true) as ->.
    { apply id_accepted_spec; [exact Hm|]. left. split; [exact Hm|]. exists []. now rewrite app_nil_r. }
    cbn [negb nodes rti0 connected]. replace (n <=? i)%nat with false by (symmetry; apply Nat.leb_gt; lia). reflexivity. }
  assert (S1 : step (loop0 id n) (Attempt m true false) = (mkLoop (set_connected (rti0 id n) i true) [], Some (Ack i))).
  { unfold step, loop0. cbn [coord admitted nodes rti0 length]. replace (n <=? 0)%nat with false by (symmetry; apply Nat.leb_gt; lia).
    change (mkRti id n (fun _ => false)) with (rti0 id n). rewrite E. reflexivity. }
  subst l1. rewrite S1. cbn [fst snd]. split; [reflexivity|].
  assert (G : forall os l, attempts_only os -> loop_ok l -> nodes (coord l) = n -> connected (coord l) i = true -> ~ In i (admitted l) ->
     loop_ok (run l os) /\ nodes (coord (run l os)) = n /\ connected (coord (run l os)) i = true /\ ~ In i (admitted (run l os))).
  { induction os0 as [|o os0 IH]; intros l A0 Ok0 N0 C0 I0; [auto|]. inversion A0 as [|? ? Ho A']; subst. cbn [run].
    destruct o as [m' acked rest|j]; [|destruct Ho]. pose proof (step_ok l m' acked rest Ok0) as Ok1. revert Ok1. cbn [step].
    destruct (_ <=? _)%nat; [intros _; cbn [fst]; now apply IH|].
    pose proof (check_shape (coord l) m' acked) as (Sa & _ & Sc & Sd). destruct (check_fed_id (coord l) m' acked) as [r a]. cbn [fst snd] in Sa, Sc, Sd.
    destruct a as [k| |]; intros Ok1; cbn [fst] in *; (apply IH; [exact A'|exact Ok1|cbn [coord]; congruence|cbn [coord]; now apply Sc|]); cbn [admitted]; try exact I0.
    destruct rest; [|exact I0]. intros [->|K]; [|now apply I0]. destruct (Sd (m_fed m) eq_refl) as (Q & _). congruence. }
  destruct (G os (mkLoop (set_connected (rti0 id n) i true) [])) as (Ok1 & N1 & C1 & I1); try assumption; try reflexivity.
  { split; [constructor|]. cbn. split; [lia|]. intros j []. }
  { cbn. now rewrite Nat.eqb_refl. }
  { intros []. }
  split; [exact I1|]. split.
  - destruct Ok1 as (D & L & R). rewrite N1 in L, R. destruct (Nat.lt_ge_cases (length (admitted (run {| coord := set_connected (rti0 id n) i true; admitted := [] |} os))) n) as [|G1]; [assumption|].
    exfalso. apply I1. assert (Inc : incl (seq 0 n) (admitted (run {| coord := set_connected (rti0 id n) i true; admitted := [] |} os))).
    { apply NoDup_length_incl; [exact D|rewrite seq_length; lia|]. intros j Hj. apply in_seq. destruct (R j Hj). lia. }
    apply Inc. apply in_seq. lia.
  - intros m' F' k H. cbn [step] in H. destruct (_ <=? _)%nat; [discriminate|].
    pose proof (check_shape (coord (run {| coord := set_connected (rti0 id n) i true; admitted := [] |} os)) m' true) as (_ & _ & _ & Sd).
    destruct (check_fed_id _ m' true) as [r [j| |]] eqn:Ec; cbn [snd] in *; try discriminate.
    destruct (Sd j eq_refl) as (Q & _). assert (j = i) by (rewrite <- F'; symmetry; eapply check_ack; rewrite Ec; reflexivity).
    congruence.
Qed.

(** C48: another federate is accepted by a federate only if what it presents
    begins with the own identifier. *)
Theorem C48_p2p mine n m i : (length mine <= 255)%nat -> check_p2p mine n m = Ok (Ack i) ->
  m_fed m = i /\ (i < n)%nat /\ exists b, m_id m = Some b /\ is_prefix mine b.
Proof.
  intros L E. unfold check_p2p in E. destruct (negb _); [discriminate|]. destruct (m_id m) as [b|]; [|discriminate].
  rewrite Nat.min_l in E by lia. unfold bind in E. destruct (strn_raw (length mine) mine b) as [[|]|] eqn:S1; try discriminate.
  destruct (Nat.ltb_spec (m_fed m) n); [|discriminate]. injection E as <-. split; [reflexivity|]. split; [assumption|]. exists b. split; [reflexivity|].
  clear L. revert b S1. induction mine as [|x s IH]; intros b S1; [exists b; reflexivity|]. cbn [length strn_raw] in S1. destruct b as [|y b]; [discriminate|].
  destruct (Z.eqb_spec x y) as [->|]; [|discriminate]. destruct (IH b S1) as (r & ->). exists r. reflexivity.
Qed.
(** Findings: a longer identifier is accepted; a shorter one that begins alike
    makes the federate read past its buffer; the identifier of the other federate
    is not checked before it indexes an array. *)
Theorem C48_p2p_longer_refuted : exists mine b,
  b <> mine /\ check_p2p mine 2 (mkFirst MSG_TYPE_P2P_SENDING_FED_ID 1 (Some b)) = Ok (Ack 1).
Proof. exists (lit "Fed"), (lit "Federation"). split; [discriminate|reflexivity]. Qed.
Theorem C48_p2p_overread_refuted : exists mine b,
  check_p2p mine 2 (mkFirst MSG_TYPE_P2P_SENDING_FED_ID 1 (Some b)) = UB /\ length b = 3%nat.
Proof. exists (lit "Federation"), (lit "Fed"). split; reflexivity. Qed.
Theorem C48_p2p_range_refuted : exists mine i,
  check_p2p mine 2 (mkFirst MSG_TYPE_P2P_SENDING_FED_ID i (Some mine)) = UB.
Proof. exists (lit "Fed"), 2%nat. reflexivity. Qed.

Print Assumptions C48_admitted.
Print Assumptions C48_exact.
Print Assumptions C48_distinct.
Print Assumptions C48_prefix_refuted.
Print Assumptions C48_stuck_refuted.
Print Assumptions C48_p2p.
Print Assumptions C48_p2p_longer_refuted.
Print Assumptions C48_p2p_overread_refuted.
Print Assumptions C48_p2p_range_refuted.
