(** Proofs about stopping a federation. *)
From Verif Require Import Base Tag TagSpec TagProofs.
From Verif Require TagBarrierProofs.
Import TagBarrierProofs.
From Verif Require Import RtiStop RtiStopSpec.

Lemma upd_same {A} (f : nat -> A) i a : upd f i a i = a. Proof. unfold upd. now rewrite Nat.eqb_refl. Qed.
Lemma upd_other {A} (f : nat -> A) i j a : j <> i -> upd f i a j = f j. Proof. intros H. unfold upd. now rewrite (proj2 (Nat.eqb_neq j i) H). Qed.

Lemma bump_gt t : 0 <= tmicro t < UINT_MAX -> tag_lt t (bump t).
Proof. intros H. unfold bump, tag_lt, two32, UINT_MAX in *. cbn. rewrite Z.mod_small by lia. right; lia. Qed.
Lemma bump_least t u : 0 <= tmicro t < UINT_MAX -> tag_lt t u -> tag_le (bump t) u.
Proof. intros H. unfold bump, tag_lt, tag_le, two32, UINT_MAX in *. cbn. rewrite Z.mod_small by lia. lia. Qed.

Lemma filter_le {A} (f : A -> bool) l : (length (filter f l) <= length l)%nat.
Proof. induction l as [|a l IH]; cbn; [lia|]. destruct (f a); cbn; lia. Qed.

(** ** The coordinator *)
Section N.
Variable n : nat.

Definition number (f : nat -> bool) : nat := length (filter f (seq 0 n)).
Lemma number_upd f i : (i < n)%nat -> f i = false -> number (upd f i true) = S (number f).
Proof.
  unfold number. assert (forall l, NoDup l -> ~ In i l -> filter (upd f i true) l = filter f l) as A.
  { induction l as [|a l IH]; intros N I; [reflexivity|]. apply NoDup_cons_iff in N. cbn. rewrite upd_other by (intros ->; apply I; now left). rewrite IH; [reflexivity|apply N|intros H; apply I; now right]. }
  intros Hi Hf. assert (In i (seq 0 n)) as H by (apply in_seq; lia). pose proof (seq_NoDup n 0) as N. revert H N. generalize (seq 0 n). induction l as [|a l IH]; intros H N; [easy|]. apply NoDup_cons_iff in N. destruct N as (N1 & N2). cbn [filter].
  destruct (Nat.eq_dec a i) as [->|Ne].
  - rewrite upd_same, Hf. cbn. now rewrite A.
  - rewrite upd_other by exact Ne. destruct H as [H|H]; [contradiction|]. destruct (f a); cbn; rewrite IH by assumption; reflexivity.
Qed.
Lemma number_all f : number f = n -> forall i, (i < n)%nat -> f i = true.
Proof.
  unfold number. intros H i Hi. assert (forall l, length (filter f l) = length l -> forall x, In x l -> f x = true) as A.
  { induction l as [|a l IH]; intros E x; [intros []|]. cbn in E. pose proof (filter_le f l) as L. destruct (f a) eqn:Fa; cbn in E; [|lia]. intros [<-|K]; [exact Fa|apply IH; [lia|exact K]]. }
  apply (A (seq 0 n)); [now rewrite seq_length|apply in_seq; lia].
Qed.
Lemma number_ext f g : (forall i, (i < n)%nat -> f i = g i) -> number f = number g.
Proof. intros H. unfold number. f_equal. apply filter_ext_in. intros i Hi. apply in_seq in Hi. apply H. lia. Qed.
Lemma all_number f : (forall i, (i < n)%nat -> f i = true) -> number f = n.
Proof.
  intros H. unfold number. rewrite (filter_ext_in f (fun _ => true)).
  - assert (forall l : list nat, filter (fun _ => true) l = l) as E by (induction l; cbn; congruence). rewrite E. apply seq_length.
  - intros a Ha. apply in_seq in Ha. apply H. lia.
Qed.

Definition is_grant (x : out) : bool := match snd x with Grant _ => true | AskStop _ => false end.
Definition all_grants (r : rti) : list out := map (fun j => (j, Grant (max_stop r))) (filter (conn r) (seq 0 n)).

Record eff (i : nat) (r0 r : rti) (o : list out) : Prop := {
  e_conn : conn r = conn r0;
  e_max : max_stop r = max_stop r0;
  e_mono : forall j, asked r0 j = true -> asked r j = true;
  e_new : forall j, asked r j = true -> asked r0 j = true \/ conn r0 j = false \/ j = i;
  e_count : count r = number (asked r);
  e_grant : granted r = granted r0 /\ filter is_grant o = [] \/ granted r0 = false /\ granted r = true /\ count r = n /\ filter is_grant o = all_grants r0;
  e_ask : forall j t, In (j, AskStop t) o -> asked r0 j = false /\ conn r0 j = true /\ (j < n)%nat;
  e_full : count r = n -> granted r = true }.

Lemma all_grants_is r : filter is_grant (all_grants r) = all_grants r.
Proof. unfold all_grants. induction (filter (conn r) (seq 0 n)) as [|a l IH]; cbn; [reflexivity|now rewrite IH]. Qed.
Lemma all_grants_ask r j t : ~ In (j, AskStop t) (all_grants r).
Proof. unfold all_grants. intros H. apply in_map_iff in H. destruct H as (x & E & _). discriminate. Qed.

Lemma mark_eff i r f : count r = number (asked r) -> (f < n)%nat -> (conn r f = false \/ f = i) ->
  let m := mark n r f in eff i r (fst (fst m)) (snd (fst m)) /\ asked (fst (fst m)) f = true /\ in_progress (fst (fst m)) = in_progress r /\
  (forall j, f <> j -> asked (fst (fst m)) j = asked r j) /\ (snd m = true -> granted (fst (fst m)) = true) /\ (snd m = false -> snd (fst m) = []) /\ (forall j t, ~ In (j, AskStop t) (snd (fst m))).
Proof.
  intros C Hf Hi. unfold mark. cbv zeta. set (r1 := if asked r f then r else _).
  assert (conn r1 = conn r /\ max_stop r1 = max_stop r /\ granted r1 = granted r /\ in_progress r1 = in_progress r /\ asked r1 f = true /\ (forall j, f <> j -> asked r1 j = asked r j) /\ count r1 = number (asked r1)) as (A1 & A2 & A3 & A4 & A5 & A6 & A7).
  { unfold r1. destruct (asked r f) eqn:Af; [auto 10|]. cbn. rewrite upd_same. repeat split; auto; [intros j Hj; rewrite upd_other by congruence; reflexivity|]. now rewrite number_upd, C. }
  assert (forall j, asked r j = true -> asked r1 j = true) as M. { intros j. destruct (Nat.eq_dec f j) as [->|Ne]; [auto|]. now rewrite A6. }
  assert (forall j, asked r1 j = true -> asked r j = true \/ conn r j = false \/ j = i) as W. { intros j. destruct (Nat.eq_dec f j) as [->|Ne]; [tauto|]. rewrite A6 by exact Ne. auto. }
  destruct (Nat.eqb_spec (count r1) n) as [E|E].
  - unfold broadcast. destruct (granted r1) eqn:G; cbn [fst snd].
    + split; [split; auto; [left; split; [congruence|reflexivity]|intros j t []]|]. auto 12.
    + split; [|split; [exact A5|]; split; [exact A4|]; split; [exact A6|]; split; [reflexivity|]; split; [discriminate|]; intros j t K; now apply (all_grants_ask r1) in K]. split; cbn [conn asked count granted max_stop]; auto.
      * right. split; [congruence|]. split; [reflexivity|]. split; [exact E|]. unfold all_grants. rewrite <- A1, <- A2. apply (all_grants_is r1).
      * intros j t H. now apply (all_grants_ask r1) in H.
  - cbn [fst snd]. split; [split; auto; try contradiction|]. split; [auto|]. split; [auto|]. split; [auto|]. split; [discriminate|]. split; [reflexivity|intros j t []].
Qed.

Lemma eff_trans i r0 r1 r2 o o' : eff i r0 r1 o -> eff i r1 r2 o' -> eff i r0 r2 (o ++ o').
Proof.
  intros [A1 A2 A3 A4 A5 A6 A7 A8] [B1 B2 B3 B4 B5 B6 B7 B8]. split; auto; try congruence.
  - intros j H. destruct (B4 j H) as [K|[K|K]]; [auto|rewrite A1 in K; auto|auto].
  - rewrite filter_app. assert (all_grants r1 = all_grants r0) as Eg by (unfold all_grants; now rewrite A1, A2).
    destruct A6 as [(A6 & A6')|(A6 & A6' & A6'' & A6''')], B6 as [(B6 & B6')|(B6 & B6' & B6'' & B6''')].
    + left. rewrite A6', B6'. split; [congruence|reflexivity].
    + right. split; [congruence|]. split; [exact B6'|]. split; [exact B6''|]. rewrite A6'. cbn. congruence.
    + right. split; [exact A6|]. split; [congruence|]. split; [|rewrite B6', app_nil_r; exact A6'''].
      rewrite B5. apply all_number. intros j Hj. apply B3. apply number_all; [congruence|exact Hj].
    + congruence.
  - intros j t H. apply in_app_or in H. destruct H as [H|H]; [eauto|]. destruct (B7 j t H) as (K1 & K2 & K3). split; [destruct (asked r0 j) eqn:K; [apply A3 in K; congruence|reflexivity]|]. split; [congruence|exact K3].
Qed.
Lemma eff_refl i r : count r = number (asked r) -> (count r = n -> granted r = true) -> eff i r r [].
Proof. intros C F. split; auto. intros j t []. Qed.

Lemma forward_eff i t l : forall r, (forall j, In j l -> (j < n)%nat) -> count r = number (asked r) -> (count r = n -> granted r = true) ->
  let x := forward n r i t l in eff i r (fst x) (snd x) /\ in_progress (fst x) = in_progress r /\ (forall j, In j l -> j <> i -> asked (fst x) j = true \/ In (j, AskStop t) (snd x)).
Proof.
  induction l as [|a l IH]; intros r Hl C F; cbn [forward].
  - cbn. split; [now apply eff_refl|]. split; [reflexivity|intros j []].
  - set (p := if negb (Nat.eqb a i) && negb (asked r a) then _ else _).
    assert (eff i r (fst p) (snd p) /\ in_progress (fst p) = in_progress r /\ (a <> i -> asked (fst p) a = true \/ In (a, AskStop t) (snd p))) as (P1 & P2 & P3).
    { unfold p. destruct (Nat.eqb_spec a i) as [->|Ne]; cbn [negb andb]; [split; [now apply eff_refl|split; [reflexivity|easy]]|].
      destruct (asked r a) eqn:Aa; cbn [negb]; [split; [now apply eff_refl|auto]|]. destruct (conn r a) eqn:Ca.
      - split; [|split; [reflexivity|intros _; right; now left]]. cbn [fst snd]. split; auto. intros j u [H|[]]. injection H as <- <-. split; [exact Aa|split; [exact Ca|apply Hl; now left]].
      - destruct (mark_eff i r a C (Hl a (or_introl eq_refl)) (or_introl Ca)) as (M1 & M2 & M3 & _). split; [exact M1|]. split; [exact M3|]. auto. }
    destruct p as [r1 o1]. cbn [fst snd] in *. destruct (IH r1 (fun j Hj => Hl j (or_intror Hj)) (e_count _ _ _ _ P1) (e_full _ _ _ _ P1)) as (Q1 & Q2 & Q3).
    destruct (forward n r1 i t l) as [r2 o2]. cbn [fst snd] in *. split; [eapply eff_trans; eassumption|]. split; [congruence|].
    intros j [<-|Hj] Ne; [destruct (P3 Ne) as [K|K]; [left; now apply (e_mono _ _ _ _ Q1)|right; apply in_or_app; auto]|destruct (Q3 j Hj Ne) as [K|K]; [auto|right; apply in_or_app; auto]].
Qed.

Definition max_tag (a b : tag) : tag := if 0 <? tag_compare b a then b else a.
Lemma max_ge a b : tag_le a (max_tag a b) /\ tag_le b (max_tag a b).
Proof.
  unfold max_tag. destruct (0 <? tag_compare b a) eqn:C.
  - apply cmp_gt0 in C. split; [now apply tag_lt_le|apply tag_le_refl].
  - split; [apply tag_le_refl|]. apply tag_not_lt. intros H. apply cmp_gt0 in H. congruence.
Qed.

(** What a proposal from a federate that has made none does. *)
Record received (i : nat) (t : tag) (r r' : rti) (o : list out) : Prop := {
  v_conn : conn r' = conn r;
  v_max : max_stop r' = max_tag (max_stop r) t;
  v_asked : asked r' i = true;
  v_mono : forall j, asked r j = true -> asked r' j = true;
  v_new : forall j, asked r' j = true -> asked r j = true \/ conn r j = false \/ j = i;
  v_count : count r' = number (asked r');
  v_full : count r' = n -> granted r' = true;
  v_grant : granted r' = granted r /\ filter is_grant o = [] \/ granted r = false /\ granted r' = true /\ count r' = n /\ filter is_grant o = all_grants r';
  v_ask : forall j u, In (j, AskStop u) o -> asked r j = false /\ conn r j = true /\ (j < n)%nat }.

Lemma raise_spec r t : conn (raise r t) = conn r /\ asked (raise r t) = asked r /\ count (raise r t) = count r /\ in_progress (raise r t) = in_progress r /\ granted (raise r t) = granted r /\ max_stop (raise r t) = max_tag (max_stop r) t.
Proof. unfold raise, max_tag. destruct (0 <? _); cbn; auto 10. Qed.

Lemma eff_received i t r r1 r' o : conn r1 = conn r -> asked r1 = asked r -> granted r1 = granted r -> max_stop r1 = max_tag (max_stop r) t ->
  eff i r1 r' o -> asked r' i = true -> received i t r r' o.
Proof.
  intros C A G M [E1 E2 E3 E4 E5 E6 E7 E8] Ai. split; auto; try congruence.
  - intros j H. apply E3. congruence.
  - intros j H. destruct (E4 j H) as [K|[K|K]]; rewrite ?A, ?C in K; auto.
  - rewrite <- G. destruct E6 as [E6|(E6 & E6' & E6'' & E6''')]; [now left|right]. repeat split; auto. rewrite E6'''. unfold all_grants. now rewrite E1, E2.
  - intros j u H. rewrite <- A, <- C. eauto.
Qed.

Lemma on_reply_spec r i t : count r = number (asked r) -> (i < n)%nat ->
  received i t r (fst (on_reply n r i t)) (snd (on_reply n r i t)) /\ in_progress (fst (on_reply n r i t)) = in_progress r /\ (forall j u, ~ In (j, AskStop u) (snd (on_reply n r i t))).
Proof.
  intros C Hi. unfold on_reply. destruct (raise_spec r t) as (R1 & R2 & R3 & R4 & R5 & R6).
  destruct (mark_eff i (raise r t) i ltac:(congruence) Hi (or_intror eq_refl)) as (M1 & M2 & M3 & _ & _ & _ & M7). split; [|split; [congruence|exact M7]]. eapply eff_received; eauto.
Qed.
Lemma on_request_spec r i t : count r = number (asked r) -> (i < n)%nat -> asked r i = false ->
  let x := on_request n r i t in received i t r (fst x) (snd x) /\ (in_progress (fst x) = true \/ granted (fst x) = true) /\
  (in_progress r = true -> in_progress (fst x) = true) /\
  (in_progress r = false -> in_progress (fst x) = true -> forall j, (j < n)%nat -> asked (fst x) j = true \/ exists u, In (j, AskStop u) (snd x)) /\
  (forall j u, In (j, AskStop u) (snd x) -> in_progress (fst x) = true).
Proof.
  intros C Hi Ai. cbv zeta. unfold on_request. rewrite Ai. destruct (raise_spec r t) as (R1 & R2 & R3 & R4 & R5 & R6).
  destruct (mark_eff i (raise r t) i ltac:(congruence) Hi (or_intror eq_refl)) as (M1 & M2 & M3 & _ & M5 & M6 & M7).
  destruct (mark n (raise r t) i) as [[r1 o1] b]. cbn [fst snd] in *.
  assert (received i t r r1 o1) as V1 by (eapply eff_received; eauto).
  destruct b.
  - cbn [fst snd]. split; [exact V1|]. split; [right; now apply M5|]. split; [congruence|]. split; [intros H1 H2; congruence|]. intros j u K. now apply M7 in K.
  - destruct (in_progress r1) eqn:Ip.
    + cbn [fst snd]. split; [exact V1|]. split; [now left|]. split; [auto|]. split; [intros H1; congruence|]. intros j u K. now apply M7 in K.
    + set (r2 := mkRti _ _ _ true _ _).
      assert (eff i (raise r t) r2 o1) as M1'. { destruct M1 as [E1 E2 E3 E4 E5 E6 E7 E8]. split; auto. }
      destruct (forward_eff i (max_stop r2) (seq 0 n) r2) as (F1 & F2 & F3).
      { intros j Hj. apply in_seq in Hj. lia. }
      { apply (e_count _ _ _ _ M1'). }
      { apply (e_full _ _ _ _ M1'). }
      destruct (forward n r2 i (max_stop r2) (seq 0 n)) as [r3 o3]. cbn [fst snd] in *.
      assert (asked r3 i = true) as A3 by now apply (e_mono _ _ _ _ F1).
      split; [eapply eff_received; eauto; eapply eff_trans; eassumption|]. split; [left; exact F2|]. split; [intros _; exact F2|]. split; [|intros; exact F2]. intros _ _ j Hj.
      destruct (Nat.eq_dec j i) as [->|Ne]; [now left|]. destruct (F3 j) as [K|K]; [apply in_seq; lia|exact Ne|now left|right; eexists; apply in_or_app; eauto].
Qed.

(** ** The invariant *)
Definition props (l : list up) : list tag := flat_map (fun m => match m with Req t | Rep t => [t] | Bye => [] end) l.
Definition grantees (es : list event) : list nat := flat_map (fun e => match e with GrantSent j _ => [j] | _ => [] end) es.
Definition is_gr (d : down) : bool := match d with Grant _ => true | AskStop _ => false end.
Definition stopped (p : phase) : nat := match p with Stopping _ => 1 | _ => 0 end.

Record fed_ok (stp : tag) (f : fed) : Prop := {
  k_micro : 0 <= tmicro (cur f) < UINT_MAX;
  k_phase : match ph f with
            | Idle | Called | Told _ => horizon f = None /\ stop f = stp
            | Collected t | Answering t | Waiting t => stop f = stp /\ exists h, horizon f = Some h /\ tag_lt (cur f) h /\ tag_le h t
            | Stopping t => stop f = (if tag_compare t stp <? 0 then t else stp) /\ horizon f = None /\ tag_le (cur f) t
            end }.
Definition link (c : bool) (f : fed) : Prop :=
  if c then (if alive f then ~ In Bye (ups f) else exists l, ups f = l ++ [Bye] /\ ~ In Bye l) else alive f = false /\ ups f = [].
Definition ans (r : rti) (i : nat) (f : fed) : Prop :=
  match ph f with
  | Waiting t => props (ups f) = [t] /\ asked r i = false \/ props (ups f) = [] /\ asked r i = true /\ tag_le t (max_stop r)
  | Stopping t => asked r i = true /\ t = max_stop r /\ granted r = true /\ props (ups f) = []
  | _ => props (ups f) = [] /\ (asked r i = true -> conn r i = false)
  end.
Definition told (f : fed) : Prop := (exists t, In (AskStop t) (downs f)) \/ (exists t, ph f = Told t \/ ph f = Answering t) \/ (exists t, In (Rep t) (ups f)).

Record J (stops : nat -> tag) (s : state) (es : list event) : Prop := {
  j_fed : forall i, (i < n)%nat -> fed_ok (stops i) (feds s i);
  j_link : forall i, (i < n)%nat -> link (conn (coord s) i) (feds s i);
  j_ans : forall i, (i < n)%nat -> ans (coord s) i (feds s i);
  j_count : count (coord s) = number (asked (coord s));
  j_full : count (coord s) = n -> (0 < n)%nat -> granted (coord s) = true;
  j_all : granted (coord s) = true -> forall i, (i < n)%nat -> asked (coord s) i = true;
  j_prop : forall i t, In (Proposed i t) es -> asked (coord s) i = true /\ tag_le t (max_stop (coord s)) /\ (in_progress (coord s) = true \/ granted (coord s) = true);
  j_grev : forall j t, In (GrantSent j t) es -> granted (coord s) = true /\ t = max_stop (coord s);
  j_grdn : forall j t, (j < n)%nat -> In (Grant t) (downs (feds s j)) -> granted (coord s) = true /\ t = max_stop (coord s);
  j_gone : forall j, (j < n)%nat -> granted (coord s) = true -> conn (coord s) j = true -> In (GrantSent j (max_stop (coord s))) es;
  j_one : forall j, (j < n)%nat -> (length (filter is_gr (downs (feds s j))) + stopped (ph (feds s j)) <= 1)%nat;
  j_nodup : NoDup (grantees es);
  j_got : forall i t c, In (Granted i t c) es -> granted (coord s) = true /\ t = max_stop (coord s) /\ tag_lt c t;
  j_ask : in_progress (coord s) = true -> forall j, (j < n)%nat -> asked (coord s) j = true \/ exists t, In (AskSent j t) es;
  j_told : forall i, (i < n)%nat -> told (feds s i) -> in_progress (coord s) = true }.

Lemma props_app l l' : props (l ++ l') = props l ++ props l'. Proof. apply flat_map_app. Qed.
Lemma grantees_app l l' : grantees (l ++ l') = grantees l ++ grantees l'. Proof. apply flat_map_app. Qed.
Lemma grantees_in j es : In j (grantees es) -> exists t, In (GrantSent j t) es.
Proof. unfold grantees. rewrite in_flat_map. intros (e & He & H). destruct e; cbn in H; try contradiction. destruct H as [<-|[]]. eauto. Qed.

(** A step of a federate *)
Lemma local stops s es i f' es' : J stops s es -> (i < n)%nat ->
  fed_ok (stops i) f' -> link (conn (coord s) i) f' -> ans (coord s) i f' ->
  incl (downs f') (downs (feds s i)) -> (length (filter is_gr (downs f')) + stopped (ph f') <= 1)%nat ->
  (told f' -> in_progress (coord s) = true) ->
  (es' = [] \/ exists c, es' = [Granted i (max_stop (coord s)) c] /\ granted (coord s) = true /\ tag_lt c (max_stop (coord s))) ->
  J stops (put s i f') (es ++ es').
Proof.
  intros [J1 J2 J3 J4 J5 J6 J7 J8 J9 J10 J11 J12 J13 J14 J15] Hi F L A D O T Ev.
  assert (forall P : nat -> fed -> Prop, (forall j, (j < n)%nat -> P j (feds s j)) -> P i f' -> forall j, (j < n)%nat -> P j (upd (feds s) i f' j)) as U.
  { intros P H1 H2 j Hj. destruct (Nat.eq_dec j i) as [->|Ne]; [now rewrite upd_same|rewrite upd_other by exact Ne; auto]. }
  assert (forall e, In e (es ++ es') -> In e es \/ exists c, e = Granted i (max_stop (coord s)) c /\ granted (coord s) = true /\ tag_lt c (max_stop (coord s))) as V.
  { intros e He. apply in_app_or in He. destruct He as [He|He]; [auto|]. destruct Ev as [->|(c & -> & G & Lt)]; [destruct He|]. destruct He as [<-|[]]. right. eauto. }
  assert (grantees (es ++ es') = grantees es) as Gr. { rewrite grantees_app. destruct Ev as [->|(c & -> & _)]; cbn; now rewrite app_nil_r. }
  split; cbn [put coord feds]; auto.
  - now apply (U (fun j f => fed_ok (stops j) f)).
  - now apply (U (fun j f => link (conn (coord s) j) f)).
  - now apply (U (fun j f => ans (coord s) j f)).
  - intros j t H. apply V in H. destruct H as [H|(c & E & _)]; [eauto|discriminate].
  - intros j t H. apply V in H. destruct H as [H|(c & E & _)]; [eauto|discriminate].
  - intros j t Hj. revert t. refine (U (fun _ f => forall t, In (Grant t) (downs f) -> granted (coord s) = true /\ t = max_stop (coord s)) _ _ j Hj); [eauto|]. intros t H. apply (J9 i); auto.
  - intros j Hj G C. apply in_or_app. auto.
  - now apply (U (fun j f => (length (filter is_gr (downs f)) + stopped (ph f) <= 1)%nat)).
  - now rewrite Gr.
  - intros j t c H. apply V in H. destruct H as [H|(c' & E & H)]; [eauto|]. injection E as -> -> ->. tauto.
  - intros P j Hj. destruct (J14 P j Hj) as [K|(t & K)]; [auto|]. right. exists t. apply in_or_app. auto.
  - now apply (U (fun j f => told f -> in_progress (coord s) = true)).
Qed.

(** ** A proposal *)
Lemma in_grants r j d : In (j, d) (all_grants r) <-> (j < n)%nat /\ conn r j = true /\ d = Grant (max_stop r).
Proof.
  unfold all_grants. rewrite in_map_iff. split.
  - intros (x & E & H). injection E as -> <-. apply filter_In in H. destruct H as (H & C). apply in_seq in H. split; [lia|auto].
  - intros (A & B & ->). exists j. split; [reflexivity|]. apply filter_In. split; [apply in_seq; lia|exact B].
Qed.
Lemma fst_grants r : map fst (all_grants r) = filter (conn r) (seq 0 n).
Proof. unfold all_grants. rewrite map_map. apply map_id. Qed.
Lemma grants_of o j : filter is_gr (map snd (filter (fun x : out => Nat.eqb (fst x) j) o)) = map snd (filter (fun x : out => Nat.eqb (fst x) j) (filter is_grant o)).
Proof.
  induction o as [|[k d] o IH]; [reflexivity|]. cbn [filter]. unfold is_grant at 1. cbn [fst snd]. destruct d as [t|t]; destruct (Nat.eqb_spec k j) as [->|Ne]; cbn [map filter fst snd is_gr]; rewrite ?Nat.eqb_refl; cbn [map]; rewrite ?(proj2 (Nat.eqb_neq _ _) Ne), IH; reflexivity.
Qed.
Lemma one_of (l : list out) j : NoDup (map fst l) -> (length (filter (fun x : out => Nat.eqb (fst x) j) l) <= 1)%nat.
Proof.
  intros N. induction l as [|[k d] l IH]; cbn [filter fst length]; [lia|]. cbn in N. apply NoDup_cons_iff in N. destruct N as (N1 & N2). destruct (Nat.eqb_spec k j) as [->|Ne]; cbn [length]; [|auto].
  assert (filter (fun x : out => Nat.eqb (fst x) j) l = []) as ->; [|cbn; lia].
  destruct (filter _ l) as [|[k' d'] l'] eqn:E; [reflexivity|]. exfalso. apply N1. assert (In (k', d') (filter (fun x : out => Nat.eqb (fst x) j) l)) as H by (rewrite E; now left).
  apply filter_In in H. destruct H as (H & K). cbn in K. apply Nat.eqb_eq in K. subst k'. apply in_map_iff. exists (j, d'). auto.
Qed.
Lemma sent_grantees o : grantees (sent o) = map fst (filter is_grant o).
Proof. induction o as [|[k d] o IH]; [reflexivity|]. destruct d; [exact IH|]. change (k :: grantees (sent o) = k :: map fst (filter is_grant o)). now rewrite IH. Qed.
Lemma sent_in o e : In e (sent o) <-> exists j, (exists t, e = AskSent j t /\ In (j, AskStop t) o) \/ (exists t, e = GrantSent j t /\ In (j, Grant t) o).
Proof.
  unfold sent. rewrite in_map_iff. split.
  - intros ([j [t|t]] & <- & H); exists j; cbn; [left|right]; exists t; auto.
  - intros (j & [(t & -> & H)|(t & -> & H)]); eexists; split; try eassumption; reflexivity.
Qed.
Lemma deliver_in o j f d : In d (downs (deliver o j f)) <-> In d (downs f) \/ In (j, d) o.
Proof.
  cbn. rewrite in_app_iff, in_map_iff. split; (intros [H|H]; [now left|right]).
  - destruct H as ([k d'] & E & K). cbn in E. subst d'. apply filter_In in K. destruct K as (K & E). cbn in E. apply Nat.eqb_eq in E. now subst.
  - exists (j, d). split; [reflexivity|]. apply filter_In. split; [exact H|apply Nat.eqb_refl].
Qed.

Definition with_ups (f : fed) (l : list up) : fed := mkFed (cur f) (stop f) (horizon f) (ph f) (alive f) l (downs f).

Lemma proposal stops s es i m t l r' o : J stops s es -> (i < n)%nat -> ups (feds s i) = m :: l -> (m = Req t \/ m = Rep t) ->
  received i t (coord s) r' o ->
  (in_progress (coord s) = true -> in_progress r' = true) -> (in_progress r' = true \/ granted r' = true) ->
  (in_progress (coord s) = false -> in_progress r' = true -> forall j, (j < n)%nat -> asked r' j = true \/ exists u, In (j, AskStop u) o) ->
  (forall j u, In (j, AskStop u) o -> in_progress r' = true) ->
  J stops (mkState r' (fun j => deliver o j (upd (feds s) i (with_ups (feds s i) l) j))) (es ++ [Proposed i t] ++ sent o).
Proof.
  intros [J1 J2 J3 J4 J5 J6 J7 J8 J9 J10 J11 J12 J13 J14 J15] Hi Hu Hm [V1 V2 V3 V4 V5 V6 V7 V8 V9] P1 P2 P3 P4.
  assert (m <> Bye) as Hb by (destruct Hm; congruence).
  assert (props (ups (feds s i)) = t :: props l) as Hp by (rewrite Hu; destruct Hm; subst m; reflexivity).
  assert (conn (coord s) i = true) as Ci. { pose proof (J2 i Hi) as L. unfold link in L. destruct (conn (coord s) i); [reflexivity|]. destruct L as (_ & L). congruence. }
  assert (ph (feds s i) = Waiting t /\ props l = [] /\ asked (coord s) i = false) as (W1 & W2 & W3).
  { pose proof (J3 i Hi) as A. unfold ans in A. rewrite Hp in A. destruct (ph (feds s i)) as [| | | | |u|u]; try (destruct A as (A & _); discriminate).
    - destruct A as [(A & B)|(A & _)]; [|discriminate]. injection A as -> ->. auto.
    - destruct A as (_ & _ & _ & A). discriminate. }
  assert (granted (coord s) = false) as Gf. { destruct (granted (coord s)) eqn:G; [|reflexivity]. specialize (J6 eq_refl i Hi). congruence. }
  assert (tag_le (max_stop (coord s)) (max_stop r') /\ tag_le t (max_stop r')) as (Mx1 & Mx2) by (rewrite V2; apply max_ge).
  assert (granted r' = true -> filter is_grant o = all_grants r' /\ number (asked r') = n) as Go.
  { intros G. destruct V8 as [(V8 & _)|(_ & _ & V8 & V8')]; [congruence|]. split; [exact V8'|congruence]. }
  assert (granted r' = false -> filter is_grant o = []) as Gn. { intros G. destruct V8 as [(_ & V8)|(_ & V8 & _)]; [exact V8|congruence]. }
  assert (forall j u, In (j, Grant u) o -> granted r' = true /\ (j < n)%nat /\ conn r' j = true /\ u = max_stop r') as Gi.
  { intros j u H. assert (In (j, Grant u) (filter is_grant o)) as K by (apply filter_In; auto). destruct (granted r') eqn:G.
    - rewrite (proj1 (Go eq_refl)) in K. apply in_grants in K. destruct K as (K1 & K2 & K3). injection K3 as ->. auto.
    - now rewrite (Gn eq_refl) in K. }
  assert (forall j, (j < n)%nat -> forall u, ~ In (Grant u) (downs (feds s j))) as Nd. { intros j Hj u H. apply J9 in H; [|exact Hj]. destruct H. congruence. }
  assert (forall j u, ~ In (GrantSent j u) es) as Ne. { intros j u H. apply J8 in H. destruct H; congruence. }
  assert (forall e, In e (es ++ [Proposed i t] ++ sent o) <-> In e es \/ e = Proposed i t \/ In e (sent o)) as Ev.
  { intros e. rewrite !in_app_iff. cbn. split; [intros [H|[[H|[]]|H]]; auto|intros [H|[H|H]]; auto]. }
  assert (forall (P : nat -> fed -> Prop), (forall j, (j < n)%nat -> j <> i -> P j (deliver o j (feds s j))) -> P i (deliver o i (with_ups (feds s i) l)) -> forall j, (j < n)%nat -> P j (deliver o j (upd (feds s) i (with_ups (feds s i) l) j))) as U.
  { intros P H1 H2 j Hj. destruct (Nat.eq_dec j i) as [->|Nej]; [now rewrite upd_same|rewrite upd_other by exact Nej; auto]. }
  split; cbn [coord feds].
  - apply (U (fun j f => fed_ok (stops j) f)); [intros j Hj _; destruct (J1 j Hj) as [K1 K2]; split; assumption|destruct (J1 i Hi) as [K1 K2]; split; assumption].
  - rewrite V1. apply (U (fun j f => link (conn (coord s) j) f)); [intros j Hj _; exact (J2 j Hj)|]. pose proof (J2 i Hi) as L. unfold link in *. cbn. rewrite Ci, Hu in *. destruct (alive (feds s i)); [intros H; apply L; now right|].
    destruct L as (l' & E & Nb). destruct l' as [|m' l']; [injection E; congruence|]. injection E as <- ->. exists l'. split; [reflexivity|]. intros H. apply Nb. now right.
  - apply (U (fun j f => ans r' j f)).
    + intros j Hj Nej. pose proof (J3 j Hj) as A. pose proof (J2 j Hj) as L. unfold ans, link in *. cbn. rewrite V1.
      assert (asked r' j = true -> asked (coord s) j = true \/ conn (coord s) j = false) as Aj by (intros H; destruct (V5 j H) as [K|[K|K]]; [auto|auto|contradiction]).
      destruct (ph (feds s j)) as [| | | | |u|u]; try (split; [apply A|intros H; destruct (Aj H) as [K|K]; [now apply A|exact K]]).
      * destruct A as [(A & B)|(A & B & C)]; [left|right].
        -- split; [exact A|]. destruct (asked r' j) eqn:Z; [|reflexivity]. destruct (Aj eq_refl) as [K|K]; [congruence|]. rewrite K in L. destruct L as (_ & L). rewrite L in A. discriminate.
        -- split; [exact A|]. split; [auto|]. eapply tag_le_trans; eassumption.
      * destruct A as (_ & _ & A & _). congruence.
    + unfold ans. cbn. rewrite W1. right. auto.
  - exact V6.
  - intros H _. auto.
  - intros G. apply number_all. now apply Go.
  - intros j u H. apply Ev in H. destruct H as [H|[H|H]].
    + apply J7 in H. destruct H as (H1 & H2 & H3). split; [auto|]. split; [eapply tag_le_trans; eassumption|]. exact P2.
    + injection H as -> ->. auto.
    + apply sent_in in H. destruct H as (k & [(v & E & _)|(v & E & _)]); discriminate.
  - intros j u H. apply Ev in H. destruct H as [H|[H|H]]; [now apply Ne in H|discriminate|]. apply sent_in in H. destruct H as (k & [(v & E & _)|(v & E & H)]); [discriminate|]. injection E as -> ->. apply Gi in H. tauto.
  - intros j u Hj H. apply deliver_in in H. destruct H as [H|H]; [|apply Gi in H; tauto]. exfalso. destruct (Nat.eq_dec j i) as [->|Nej]; [rewrite upd_same in H|rewrite upd_other in H by exact Nej]; now apply (Nd _ Hj) in H.
  - intros j Hj G C. apply Ev. right. right. apply sent_in. exists j. right. exists (max_stop r'). split; [reflexivity|]. assert (In (j, Grant (max_stop r')) (filter is_grant o)) as K; [|apply filter_In in K; tauto].
    rewrite (proj1 (Go G)). apply in_grants. auto.
  - assert (forall j, (length (filter is_gr (map snd (filter (fun x : out => Nat.eqb (fst x) j) o))) <= 1)%nat) as One.
    { intros j. rewrite grants_of, map_length. apply one_of. destruct (granted r') eqn:G; [rewrite (proj1 (Go eq_refl)), fst_grants; apply NoDup_filter, seq_NoDup|rewrite (Gn eq_refl); constructor]. }
    assert (forall j, (j < n)%nat -> filter is_gr (downs (feds s j)) = [] /\ stopped (ph (feds s j)) = 0%nat) as Z.
    { intros j Hj. split.
      - destruct (filter is_gr (downs (feds s j))) as [|d l0] eqn:E; [reflexivity|]. assert (In d (filter is_gr (downs (feds s j)))) as H by (rewrite E; now left). apply filter_In in H. destruct H as (H & K). destruct d as [u|u]; [discriminate|]. now apply (Nd _ Hj) in H.
      - pose proof (J3 j Hj) as A. unfold ans in A. destruct (ph (feds s j)); try reflexivity. destruct A as (_ & _ & A & _). congruence. }
    apply (U (fun j f => (length (filter is_gr (downs f)) + stopped (ph f) <= 1)%nat)); [intros j Hj _|]; cbn; rewrite filter_app, app_length.
    + destruct (Z j Hj) as (-> & ->). rewrite Nat.add_0_r. exact (One j).
    + destruct (Z i Hi) as (-> & ->). rewrite Nat.add_0_r. exact (One i).
  - rewrite !grantees_app. assert (grantees es = []) as ->. { destruct (grantees es) as [|j l0] eqn:E; [reflexivity|]. assert (In j (grantees es)) as H by (rewrite E; now left). apply grantees_in in H. destruct H as (u & H). now apply Ne in H. }
    cbn. rewrite sent_grantees. destruct (granted r') eqn:G; [rewrite (proj1 (Go eq_refl)), fst_grants; apply NoDup_filter, seq_NoDup|rewrite (Gn eq_refl); constructor].
  - intros j u c H. apply Ev in H. destruct H as [H|[H|H]]; [apply J13 in H; destruct H; congruence|discriminate|]. apply sent_in in H. destruct H as (k & [(v & E & _)|(v & E & _)]); discriminate.
  - intros Pr j Hj. destruct (in_progress (coord s)) eqn:Po.
    + destruct (J14 eq_refl j Hj) as [K|(u & K)]; [left; auto|right; exists u; apply Ev; now left].
    + destruct (P3 eq_refl Pr j Hj) as [K|(u & K)]; [now left|right; exists u; apply Ev; right; right]. apply sent_in. exists j. left. eauto.
  - apply (U (fun j f => told f -> in_progress r' = true)).
    + intros j Hj _ [(u & H)|[H|H]]; [apply deliver_in in H; destruct H as [H|H]; [|eauto]| |]; apply P1, (J15 j Hj); unfold told; eauto.
    + intros [(u & H)|[H|(u & H)]]; [apply deliver_in in H; destruct H as [H|H]; [|eauto]| |]; apply P1, (J15 i Hi); unfold told; eauto. right. right. exists u. rewrite Hu. now right.
Qed.

(** ** Every step *)
Lemma goodbye stops s es i l : J stops s es -> (i < n)%nat -> ups (feds s i) = Bye :: l ->
  J stops (mkState (on_bye (coord s) i) (fun j => deliver [] j (upd (feds s) i (with_ups (feds s i) l) j))) (es ++ [Left i] ++ sent []).
Proof.
  intros [J1 J2 J3 J4 J5 J6 J7 J8 J9 J10 J11 J12 J13 J14 J15] Hi Hu.
  assert (conn (coord s) i = true /\ alive (feds s i) = false /\ l = []) as (Ci & Ai & ->).
  { pose proof (J2 i Hi) as L. unfold link in L. rewrite Hu in L. destruct (conn (coord s) i); [|destruct L; discriminate]. destruct (alive (feds s i)); [exfalso; apply L; now left|].
    destruct L as (l' & E & Nb). destruct l' as [|m' l']; [injection E as ->; auto|]. injection E as <- ->. exfalso. apply Nb. now left. }
  assert (forall e, In e (es ++ [Left i] ++ sent []) <-> In e es \/ e = Left i) as Ev. { intros e. rewrite !in_app_iff. cbn. split; [intros [H|[[H|[]]|[]]]; auto|intros [H|H]; auto]. }
  assert (forall j f, deliver [] j f = f) as De. { intros j []. unfold deliver. cbn. now rewrite app_nil_r. }
  assert (forall (P : nat -> fed -> Prop), (forall j, (j < n)%nat -> j <> i -> P j (feds s j)) -> P i (with_ups (feds s i) []) -> forall j, (j < n)%nat -> P j (deliver [] j (upd (feds s) i (with_ups (feds s i) []) j))) as U.
  { intros P H1 H2 j Hj. rewrite De. destruct (Nat.eq_dec j i) as [->|Nej]; [now rewrite upd_same|rewrite upd_other by exact Nej; auto]. }
  split; cbn [coord feds].
  - apply (U (fun j f => fed_ok (stops j) f)); [auto|destruct (J1 i Hi) as [K1 K2]; split; assumption].
  - apply (U (fun j f => link (conn (on_bye (coord s) i) j) f)); cbn.
    + intros j Hj Ne. rewrite upd_other by exact Ne. auto.
    + rewrite upd_same. unfold link. cbn. auto.
  - apply (U (fun j f => ans (on_bye (coord s) i) j f)).
    + intros j Hj Ne. pose proof (J3 j Hj) as A. unfold ans in *. cbn. rewrite upd_other by exact Ne. exact A.
    + pose proof (J3 i Hi) as A. unfold ans in *. cbn. rewrite upd_same. rewrite Hu in A. cbn in A. destruct (ph (feds s i)); auto; split; auto.
  - exact J4.
  - exact J5.
  - exact J6.
  - intros j t H. apply Ev in H. destruct H as [H|H]; [exact (J7 j t H)|discriminate].
  - intros j t H. apply Ev in H. destruct H as [H|H]; [exact (J8 j t H)|discriminate].
  - intros j t Hj. revert t. refine (U (fun _ f => forall t, In (Grant t) (downs f) -> granted (coord s) = true /\ t = max_stop (coord s)) _ _ j Hj); [eauto|]. intros t H. exact (J9 i t Hi H).
  - cbn. intros j Hj G C. apply Ev. left. apply J10; auto. unfold upd in C. destruct (Nat.eqb_spec j i) as [->|Ne]; [discriminate|exact C].
  - apply (U (fun j f => (length (filter is_gr (downs f)) + stopped (ph f) <= 1)%nat)); [auto|exact (J11 i Hi)].
  - rewrite grantees_app. cbn. now rewrite app_nil_r.
  - intros j t c H. apply Ev in H. destruct H as [H|H]; [exact (J13 j t c H)|discriminate].
  - intros Pr j Hj. destruct (J14 Pr j Hj) as [K|(t & K)]; [now left|right; exists t; apply Ev; now left].
  - apply (U (fun j f => told f -> in_progress (coord s) = true)); [intros j Hj _; apply (J15 j Hj)|]. unfold told at 1. cbn. intros [H|[H|(t & [])]]; apply (J15 i Hi); unfold told; auto.
Qed.

Lemma handled stops s es i s' es' : J stops s es -> (i < n)%nat -> handle n s i = Some (s', es') -> J stops s' (es ++ es').
Proof.
  intros H Hi E. unfold handle in E. destruct (ups (feds s i)) as [|m l] eqn:Hu; [discriminate|].
  assert (forall t, In t (props (ups (feds s i))) -> asked (coord s) i = false) as Af.
  { intros t Ht. pose proof (j_ans _ _ _ H i Hi) as A. unfold ans in A. destruct (ph (feds s i)); try (now rewrite (proj1 A) in Ht).
    - destruct A as [(_ & A)|(A & _)]; [exact A|now rewrite A in Ht].
    - destruct A as (_ & _ & _ & A). now rewrite A in Ht. }
  rewrite Hu in Af. destruct m as [t|t|].
  - destruct (on_request_spec (coord s) i t (j_count _ _ _ H) Hi) as (V & P2 & P1 & P3 & P4). { apply (Af t). now left. }
    destruct (on_request n (coord s) i t) as [r' o]. cbn [fst snd] in *. injection E as <- <-.
    eapply proposal; eauto.
  - destruct (on_reply_spec (coord s) i t (j_count _ _ _ H) Hi) as (V & P1 & P2).
    assert (in_progress (coord s) = true) as Pr. { apply (j_told _ _ _ H i Hi). right. right. exists t. rewrite Hu. now left. }
    destruct (on_reply n (coord s) i t) as [r' o]. cbn [fst snd] in *. injection E as <- <-.
    apply (proposal stops s es i (Rep t) t l r' o); auto; try congruence; left; congruence.
  - injection E as <- <-. eapply goodbye; eauto.
Qed.

Lemma link_up c f p cu st hz dn m : link c f -> alive f = true -> m <> Bye -> link c (mkFed cu st hz p (alive f) (ups f ++ [m]) dn).
Proof. unfold link. cbn. destruct c; [|intros (A & _); congruence]. intros A Al Nm. rewrite Al in *. intros H. apply in_app_or in H. destruct H as [H|[H|[]]]; auto. Qed.
Lemma link_same c f p cu st hz dn : link c f -> link c (mkFed cu st hz p (alive f) (ups f) dn).
Proof. auto. Qed.

Lemma barrier_ok f t : horizon f = None -> 0 <= tmicro (cur f) < UINT_MAX -> tag_lt (cur f) t -> tag_lt (cur f) (barrier f t) /\ tag_le (barrier f t) t.
Proof.
  intros Hz Hm Lt. unfold barrier. rewrite Hz. set (t1 := if 0 <? tag_compare t (stop f) then stop f else t).
  assert (tag_le t1 t) as L1. { unfold t1. destruct (0 <? tag_compare t (stop f)) eqn:C; [apply cmp_gt0 in C; now apply tag_lt_le|apply tag_le_refl]. }
  destruct (0 <? tag_compare t1 (cur f)) eqn:C; [apply cmp_gt0 in C; auto|]. split; [now apply bump_gt|now apply bump_least].
Qed.

Lemma stepped stops s es o s' es' : J stops s es -> allowed n o -> step n s o = Some (s', es') -> J stops s' (es ++ es').
Proof.
  intros H Al E. destruct o as [i t|i|i|i|i|i|i|i|i]; cbn [allowed] in Al; [destruct Al as (Hi & Hm)|..|exact (handled _ _ _ _ _ _ H Al E)]; try rename Al into Hi; cbn [step] in E;
  pose proof (j_fed _ _ _ H i Hi) as [Fm Fp]; pose proof (j_link _ _ _ H i Hi) as L; pose proof (j_ans _ _ _ H i Hi) as A; pose proof (j_one _ _ _ H i Hi) as O; pose proof (j_told _ _ _ H i Hi) as T.
  - destruct (alive (feds s i) && _ && _ && _) eqn:C in E; [|discriminate]. apply andb_prop in C. destruct C as (C & C4). apply andb_prop in C. destruct C as (C & C3). apply andb_prop in C. destruct C as (C1 & C2). injection E as <- <-.
    apply local; auto.
    + split; cbn; [exact Hm|]. assert (forall h, horizon (feds s i) = Some h -> tag_lt t h) as Hh by (intros h Eh; rewrite Eh in C4; now apply cmp_lt0 in C4).
      destruct (ph (feds s i)); auto; try (destruct Fp as (P1 & h & P2 & P3 & P4); split; [exact P1|exists h; auto]).
      destruct Fp as (P1 & P2 & P3). split; [exact P1|]. split; [exact P2|]. apply cmp_le0 in C3. eapply tag_le_trans; [exact C3|]. rewrite P1. destruct (tag_compare _ (stops i) <? 0) eqn:Z; [apply tag_le_refl|]. now apply cmp_lt0f in Z.
    + now apply incl_refl.
  - destruct (alive (feds s i)) eqn:Al; [|discriminate]. destruct (ph (feds s i)) eqn:P; try discriminate. injection E as <- <-. apply local; auto.
    + split; cbn; [exact Fm|exact Fp].
    + unfold ans in *. cbn. rewrite P in A. exact A.
    + now apply incl_refl.
    + intros K. apply T. unfold told in *. cbn in K. destruct K as [K|[(t & [K|K])|K]]; auto; discriminate.
  - destruct (alive (feds s i)) eqn:Al; [|discriminate]. destruct (ph (feds s i)) eqn:P; try discriminate. injection E as <- <-. rewrite <- Al. apply local; auto.
    + split; cbn; [exact Fm|]. destruct Fp as (F1 & F2). split; [exact F2|]. eexists. split; [reflexivity|]. unfold barrier. rewrite F1.
      assert (0 <? tag_compare (if 0 <? tag_compare (cur (feds s i)) (stop (feds s i)) then stop (feds s i) else cur (feds s i)) (cur (feds s i)) = false) as ->.
      { destruct (0 <? tag_compare (cur (feds s i)) (stop (feds s i))) eqn:Z; [|rewrite (proj2 (tag_compare_eq _ _) eq_refl); reflexivity]. apply cmp_gt0 in Z. destruct (0 <? tag_compare (stop (feds s i)) (cur (feds s i))) eqn:Y; [|reflexivity]. apply cmp_gt0 in Y. exfalso. eapply tag_lt_irrefl. eapply tag_lt_trans; eassumption. }
      split; [now apply bump_gt|apply tag_le_refl].
    + unfold ans in *. cbn. rewrite P in A. exact A.
    + now apply incl_refl.
    + intros K. apply T. unfold told in *. cbn in K. destruct K as [K|[(t & [K|K])|K]]; auto; discriminate.
  - destruct (alive (feds s i)) eqn:Al; [|discriminate]. destruct (ph (feds s i)) eqn:P; try discriminate. injection E as <- <-. rewrite <- Al. apply local; auto.
    + split; cbn; [exact Fm|exact Fp].
    + apply link_up; auto. discriminate.
    + unfold ans in *. cbn. rewrite P in A. destruct A as (A1 & A2). left. rewrite props_app, A1. split; [reflexivity|]. destruct (asked (coord s) i) eqn:Z; [|reflexivity]. unfold link in L. rewrite (A2 eq_refl) in L. destruct L. congruence.
    + now apply incl_refl.
    + intros K. apply T. unfold told in *. cbn in K. destruct K as [K|[(u & [K|K])|(u & K)]]; auto; try discriminate. apply in_app_or in K. destruct K as [K|[K|[]]]; [|discriminate]. right. right. eauto.
  - destruct (alive (feds s i)) eqn:Al; [|discriminate]. destruct (downs (feds s i)) as [|d l] eqn:D; [discriminate|]. destruct d as [t|t]; injection E as <- <-; rewrite <- Al.
    + apply local; auto.
      * split; cbn; [exact Fm|]. destruct (ph (feds s i)); exact Fp.
      * unfold ans in *. cbn. destruct (ph (feds s i)); exact A.
      * cbn. rewrite D. intros x Hx. now right.
      * cbn. cbn in O. destruct (ph (feds s i)); exact O.
      * intros K. apply T. unfold told. rewrite D. left. exists t. now left.
    + destruct (j_grdn _ _ _ H i t Hi) as (G1 & G2). { rewrite D. now left. }
      assert (conn (coord s) i = true) as Ci. { unfold link in L. destruct (conn (coord s) i); [reflexivity|]. destruct L. congruence. }
      pose proof (j_all _ _ _ H G1 i Hi) as As.
      assert (exists u, ph (feds s i) = Waiting u /\ tag_le u t /\ props (ups (feds s i)) = []) as (u & P & Le & Np).
      { unfold ans in A. destruct (ph (feds s i)) as [| | | | |u|u] eqn:P; try (destruct A as (_ & A); specialize (A As); congruence).
        - destruct A as [(_ & A)|(A & _ & B)]; [congruence|]. exists u. split; [reflexivity|]. split; [congruence|exact A].
        - exfalso. cbn in O. lia. }
      rewrite P in Fp. destruct Fp as (F1 & h & F2 & F3 & F4).
      assert (tag_lt (cur (feds s i)) t) as Lt by (eapply tag_lt_le_trans; [exact F3|]; eapply tag_le_trans; eassumption).
      assert (tag_compare t (cur (feds s i)) <=? 0 = false) as Cf. { destruct (tag_compare t (cur (feds s i)) <=? 0) eqn:Z; [|reflexivity]. apply cmp_le0 in Z. exfalso. eapply tag_lt_irrefl. eapply tag_lt_le_trans; eassumption. }
      unfold accept. cbn [cur stop alive ups downs]. rewrite Cf. apply local; auto.
      * split; cbn; [exact Fm|]. rewrite F1. split; [reflexivity|]. split; [reflexivity|]. now apply tag_lt_le.
      * unfold ans. cbn. auto.
      * cbn. rewrite D. intros x Hx. now right.
      * cbn. rewrite P in O. cbn in O. lia.
      * intros K. apply T. unfold told in *. cbn in K. rewrite D. destruct K as [(v & K)|[(v & [K|K])|K]]; try discriminate; [left; exists v; now right|auto].
      * right. exists (cur (feds s i)). rewrite <- G2. auto.
  - destruct (alive (feds s i)) eqn:Al; [|discriminate]. destruct (ph (feds s i)) eqn:P; try discriminate. injection E as <- <-. rewrite <- Al. apply local; auto.
    + split; cbn; [exact Fm|]. destruct Fp as (F1 & F2). split; [exact F2|]. eexists. split; [reflexivity|]. apply barrier_ok; auto.
      unfold offer. destruct (tag_compare t (cur (feds s i)) <=? 0) eqn:Z; [now apply bump_gt|]. apply tag_not_le. intros K. apply cmp_le0 in K. congruence.
    + unfold ans in *. cbn. rewrite P in A. exact A.
    + now apply incl_refl.
    + intros K. apply T. right. left. eauto.
  - destruct (alive (feds s i)) eqn:Al; [|discriminate]. destruct (ph (feds s i)) eqn:P; try discriminate. injection E as <- <-. rewrite <- Al. apply local; auto.
    + split; cbn; [exact Fm|exact Fp].
    + apply link_up; auto. discriminate.
    + unfold ans in *. cbn. rewrite P in A. destruct A as (A1 & A2). left. rewrite props_app, A1. split; [reflexivity|]. destruct (asked (coord s) i) eqn:Z; [|reflexivity]. unfold link in L. rewrite (A2 eq_refl) in L. destruct L. congruence.
    + now apply incl_refl.
    + intros K. apply T. right. left. eauto.
  - destruct (alive (feds s i)) eqn:Al; [|discriminate]. injection E as <- <-. apply local; auto.
    + split; cbn; [exact Fm|exact Fp].
    + unfold link in *. cbn. destruct (conn (coord s) i); [|destruct L; congruence]. rewrite Al in L. eauto.
    + unfold ans in *. cbn. rewrite props_app. cbn. rewrite app_nil_r. exact A.
    + now apply incl_refl.
    + intros K. apply T. unfold told in *. cbn in K. destruct K as [K|[K|(u & K)]]; auto. apply in_app_or in K. destruct K as [K|[K|[]]]; [eauto|discriminate].
Qed.

Lemma initial start stops : 0 <= tmicro start < UINT_MAX -> J stops (init start stops) [].
Proof.
  intros Hm. split; cbn [init coord feds init_rti conn asked count in_progress granted max_stop].
  - intros i Hi. split; cbn; auto.
  - intros i Hi. unfold link. cbn. easy.
  - intros i Hi. unfold ans. cbn. split; [reflexivity|discriminate].
  - unfold number. induction (seq 0 n); cbn; auto.
  - lia.
  - discriminate.
  - easy.
  - easy.
  - intros j t Hj [].
  - discriminate.
  - intros. cbn. lia.
  - constructor.
  - easy.
  - discriminate.
  - unfold told. cbn. intros i Hi [(t & [])|[(t & [K|K])|(t & [])]]; discriminate.
Qed.

Lemma exec_J start stops s es : 0 <= tmicro start < UINT_MAX -> exec n start stops s es -> J stops s es.
Proof. intros Hm X. induction X as [|s es o s' es' X IH Al St]; [now apply initial|]. eapply stepped; eassumption. Qed.
End N.

(** ** Leaving, and having been told *)
Lemma grants_le i es : NoDup (grantees es) -> (grants_to i es <= 1)%nat.
Proof.
  intros N. assert (grants_to i es = length (filter (fun j => Nat.eqb j i) (grantees es))) as ->.
  { clear N. unfold grants_to. induction es as [|e es IH]; [reflexivity|]. destruct e as [k u|k u|k u|k|k u c]; try exact IH. change (grantees (GrantSent k u :: es)) with (k :: grantees es). cbn [filter]. destruct (Nat.eqb k i); cbn [length]; now rewrite IH. }
  induction (grantees es) as [|a l IH]; cbn; [lia|]. apply NoDup_cons_iff in N. destruct N as (N1 & N2). destruct (Nat.eqb_spec a i) as [->|Ne]; cbn; [|auto].
  assert (filter (fun j => Nat.eqb j i) l = []) as ->; [|cbn; lia]. destruct (filter _ l) as [|k l'] eqn:E; [reflexivity|]. exfalso. apply N1. assert (In k (filter (fun j => Nat.eqb j i) l)) as H by (rewrite E; now left).
  apply filter_In in H. destruct H as (H & K). apply Nat.eqb_eq in K. now subst k.
Qed.

Lemma mark_conn n r f : conn (fst (fst (mark n r f))) = conn r.
Proof. unfold mark, broadcast. destruct (asked r f); destruct (Nat.eqb _ n); try destruct (granted _) eqn:?; reflexivity. Qed.
Lemma forward_conn n i t l : forall r, conn (fst (forward n r i t l)) = conn r.
Proof.
  induction l as [|a l IH]; intros r; [reflexivity|]. cbn [forward]. pose proof (mark_conn n r a) as M.
  destruct (negb (Nat.eqb a i) && negb (asked r a)); [destruct (conn r a)|].
  - specialize (IH r). destruct (forward n r i t l). exact IH.
  - destruct (mark n r a) as [[r1 o1] b]. cbn in M |- *. specialize (IH r1). destruct (forward n r1 i t l). cbn in *. congruence.
  - specialize (IH r). destruct (forward n r i t l). exact IH.
Qed.
Lemma raise_conn r t : conn (raise r t) = conn r. Proof. apply raise_spec. Qed.
Lemma request_conn n r i t : conn (fst (on_request n r i t)) = conn r.
Proof.
  unfold on_request. destruct (asked r i); [destruct (in_progress r); [apply mark_conn|reflexivity]|]. pose proof (mark_conn n (raise r t) i) as M. rewrite raise_conn in M. destruct (mark n (raise r t) i) as [[r1 o1] b]. cbn in M.
  destruct b; [exact M|]. destruct (in_progress r1); [exact M|]. cbv zeta. match goal with |- context [forward n ?x ?y ?z ?w] => pose proof (forward_conn n y z w x) as F; destruct (forward n x y z w) end. cbn in *. congruence.
Qed.

Lemma exec_left n start stops s es : exec n start stops s es -> forall j, conn (coord s) j = false -> In (Left j) es.
Proof.
  intros X. induction X as [|s es o s' es' X IH Al St]; [discriminate|]. intros j Hj. apply in_or_app.
  assert (coord s' = coord s -> In (Left j) es \/ In (Left j) es') as K by (intros E; left; apply IH; congruence).
  destruct o as [i t|i|i|i|i|i|i|i|i]; cbn [step] in St; try (apply K; destruct (alive (feds s i)); [|discriminate]).
  - cbn [andb] in St. destruct (_ && _) in St; [|discriminate]. injection St as <- <-. reflexivity.
  - destruct (ph (feds s i)); try discriminate. injection St as <- <-. reflexivity.
  - destruct (ph (feds s i)); try discriminate. injection St as <- <-. reflexivity.
  - destruct (ph (feds s i)); try discriminate. injection St as <- <-. reflexivity.
  - destruct (downs (feds s i)) as [|[t|t] l]; try discriminate; injection St as <- <-; reflexivity.
  - destruct (ph (feds s i)); try discriminate. injection St as <- <-. reflexivity.
  - destruct (ph (feds s i)); try discriminate. injection St as <- <-. reflexivity.
  - injection St as <- <-. reflexivity.
  - unfold handle in St. destruct (ups (feds s i)) as [|[t|t|] l]; [discriminate|..].
    + pose proof (request_conn n (coord s) i t) as C. destruct (on_request n (coord s) i t) as [r' o']. injection St as <- <-. left. apply IH. cbn in *. congruence.
    + pose proof (mark_conn n (raise (coord s) t) i) as C. rewrite raise_conn in C. unfold on_reply in St. destruct (mark n (raise (coord s) t) i) as [[r' o'] b]. cbn in St. injection St as <- <-. left. apply IH. cbn in *. congruence.
    + injection St as <- <-. cbn in Hj. unfold upd in Hj. destruct (Nat.eqb_spec j i) as [->|Ne]; [right; now left|left; auto].
Qed.

(** Who has been told is stopping. *)
Lemma exec_stopping n start stops s es : 0 <= tmicro start < UINT_MAX -> exec n start stops s es -> forall i t c, In (Granted i t c) es -> (i < n)%nat /\ ph (feds s i) = Stopping t.
Proof.
  intros Hm X. induction X as [|s es o s' es' X IH Al St]; [easy|]. intros j t c Hin.
  pose proof (exec_J n start stops s es Hm X) as Inv. pose proof (exec_J n start stops s' _ Hm (exec_step n start stops s es o s' es' X Al St)) as Inv'.
  apply in_app_or in Hin.
  assert (In (Granted j t c) es -> (forall f, f = feds s j -> ph f = Stopping t -> ph (feds s' j) = Stopping t) -> (j < n)%nat /\ ph (feds s' j) = Stopping t) as K.
  { intros Hi P. destruct (IH j t c Hi) as (K1 & K2). split; [exact K1|]. eapply P; eauto. }
  assert (forall i f f' e, s' = put s i f' -> es' = e -> f = feds s i -> (forall x y z, ~ In (Granted x y z) e) -> (forall t, ph f = Stopping t -> ph f' = Stopping t) -> (j < n)%nat /\ ph (feds s' j) = Stopping t) as L.
  { intros i f f' e -> -> -> Ne P. destruct Hin as [Hin|Hin]; [|now apply Ne in Hin]. apply K; [exact Hin|]. intros f -> Hp. cbn. unfold upd. destruct (Nat.eqb_spec j i) as [->|_]; auto. }
  destruct o as [i u|i|i|i|i|i|i|i|i]; cbn [step] in St; try (destruct (alive (feds s i)) eqn:Ali; [|discriminate]).
  - destruct (_ && _) in St; [|discriminate]. injection St as <- <-. eapply L; eauto.
  - destruct (ph (feds s i)) eqn:P; try discriminate. injection St as <- <-. eapply L; eauto. congruence.
  - destruct (ph (feds s i)) eqn:P; try discriminate. injection St as <- <-. eapply L; eauto. congruence.
  - destruct (ph (feds s i)) eqn:P; try discriminate. injection St as <- <-. eapply L; eauto. congruence.
  - destruct (downs (feds s i)) as [|[u|u] l] eqn:D; try discriminate; injection St as <- <-.
    + eapply L; eauto. intros v E. cbn. now rewrite E.
    + assert (exists u', ph (feds (put s i (accept (mkFed (cur (feds s i)) (stop (feds s i)) (horizon (feds s i)) (ph (feds s i)) true (ups (feds s i)) l) u)) i) = Stopping u') as (u' & P'). { cbn. rewrite upd_same. eexists. reflexivity. }
      pose proof (j_ans _ _ _ _ Inv' i Al) as A. unfold ans in A. rewrite P' in A. destruct A as (_ & A & _). cbn [put coord] in A.
      destruct (j_grdn _ _ _ _ Inv i u Al) as (_ & Eu); [rewrite D; now left|]. subst u'. rewrite <- Eu in P'.
      assert ((j < n)%nat /\ (i = j \/ ph (feds s j) = Stopping t) /\ t = u) as (Hj & E & ->).
      { destruct Hin as [Hin|[Hin|[]]]; [|injection Hin as <- <- <-; auto]. destruct (IH j t c Hin) as (K1 & K2). split; [exact K1|]. split; [now right|]. apply (j_got _ _ _ _ Inv) in Hin. destruct Hin as (_ & -> & _). congruence. }
      split; [exact Hj|]. destruct (Nat.eq_dec i j) as [<-|Ne]; [exact P'|]. cbn. rewrite upd_other by congruence. destruct E; [contradiction|assumption].
  - destruct (ph (feds s i)) eqn:P; try discriminate. injection St as <- <-. eapply L; eauto. congruence.
  - destruct (ph (feds s i)) eqn:P; try discriminate. injection St as <- <-. eapply L; eauto. congruence.
  - injection St as <- <-. eapply L; eauto.
  - unfold handle in St. destruct (ups (feds s i)) as [|m l]; [discriminate|].
    assert (forall r o e, St = St -> s' = mkState r (fun j => deliver o j (upd (feds s) i (with_ups (feds s i) l) j)) -> es' = e ++ sent o -> (forall x y z, ~ In (Granted x y z) e) -> (j < n)%nat /\ ph (feds s' j) = Stopping t) as Q.
    { intros r o e _ -> -> Ne. destruct Hin as [Hin|Hin]; [|apply in_app_or in Hin; destruct Hin as [Hin|Hin]; [now apply Ne in Hin|apply sent_in in Hin; destruct Hin as (k & [(v & E & _)|(v & E & _)]); discriminate]].
      apply K; [exact Hin|]. intros f -> Hp. cbn. unfold upd. destruct (Nat.eqb_spec j i) as [->|_]; auto. }
    destruct m as [u|u|].
    + destruct (on_request n (coord s) i u) as [r o]. injection St as <- <-. eapply (Q _ o [Proposed i u]); [reflexivity|reflexivity|reflexivity|]. intros x y z [H|[]]; discriminate.
    + destruct (on_reply n (coord s) i u) as [r o]. injection St as <- <-. eapply (Q _ o [Proposed i u]); [reflexivity|reflexivity|reflexivity|]. intros x y z [H|[]]; discriminate.
    + injection St as <- <-. eapply (Q _ [] [Left i]); [reflexivity|reflexivity|reflexivity|]. intros x y z [H|[]]; discriminate.
Qed.

(** ** A federation of two that is never told *)
Record dead (s : state) (es : list event) : Prop := {
  d_conn : conn (coord s) 1%nat = false;
  d_ups : ups (feds s 1%nat) = [];
  d_alive : alive (feds s 1%nat) = false;
  d_asked0 : asked (coord s) 0%nat = true;
  d_asked1 : asked (coord s) 1%nat = false;
  d_count : count (coord s) = 1%nat;
  d_ip : in_progress (coord s) = true;
  d_gr : granted (coord s) = false;
  d_es : forall j t, ~ In (GrantSent j t) es }.

Lemma dead_step s es o s' es' : dead s es -> allowed 2 o -> step 2 s o = Some (s', es') -> dead s' (es ++ es').
Proof.
  intros [D1 D2 D3 D4 D5 D6 D7 D8 D9] Al St.
  assert (forall f es1, (forall j t, ~ In (GrantSent j t) es1) -> dead (put s 0 f) (es ++ es1)) as Loc.
  { intros f es1 Ne. split; cbn; auto. intros j t H. apply in_app_or in H. destruct H as [H|H]; [now apply D9 in H|now apply Ne in H]. }
  assert (forall r o l e, conn r 1%nat = false -> asked r 0%nat = true -> asked r 1%nat = false -> count r = 1%nat -> in_progress r = true -> granted r = false -> o = [] -> (forall j t, ~ In (GrantSent j t) e) ->
    dead (mkState r (fun j => deliver o j (upd (feds s) 0 (with_ups (feds s 0%nat) l) j))) (es ++ e ++ sent o)) as Han.
  { intros r o0 l e A1 A2 A3 A4 A5 A6 -> Ne. split; cbn; auto. intros j t H. rewrite !in_app_iff in H. cbn in H. destruct H as [H|[H|[]]]; [now apply D9 in H|now apply Ne in H]. }
  assert (forall o0, (match o0 with Tick i _ | Call i | Collect i | SendReq i | Listen i | Answer i | SendRep i | Leave i | Handle i => i end < 2)%nat -> o0 = o -> (match o0 with Tick i _ | Call i | Collect i | SendReq i | Listen i | Answer i | SendRep i | Leave i | Handle i => i end = 0)%nat) as Z.
  { intros o0 H ->. destruct o as [i t|i|i|i|i|i|i|i|i]; cbn [step] in St; (destruct i as [|[|i]]; [reflexivity| |lia]); exfalso; rewrite ?D3 in St; try discriminate. unfold handle in St. rewrite D2 in St. discriminate. }
  specialize (Z o). assert (forall r, asked r 0%nat = true -> count r = 1%nat -> mark 2 r 0 = (r, [], false)) as Mk by (intros r A C; unfold mark; rewrite A, C; reflexivity).
  destruct o as [i t|i|i|i|i|i|i|i|i]; cbn [allowed] in Al; (assert (i = 0)%nat as -> by (apply Z; [tauto|reflexivity])); cbn [step] in St; try (destruct (alive (feds s 0%nat)); [|discriminate]).
  - destruct (_ && _) in St; [|discriminate]. injection St as <- <-. apply Loc. easy.
  - destruct (ph (feds s 0%nat)); try discriminate. injection St as <- <-. apply Loc. easy.
  - destruct (ph (feds s 0%nat)); try discriminate. injection St as <- <-. apply Loc. easy.
  - destruct (ph (feds s 0%nat)); try discriminate. injection St as <- <-. apply Loc. easy.
  - destruct (downs (feds s 0%nat)) as [|[t|t] l]; try discriminate; injection St as <- <-; apply Loc; [easy|]. intros j u [H|[]]. discriminate.
  - destruct (ph (feds s 0%nat)); try discriminate. injection St as <- <-. apply Loc. easy.
  - destruct (ph (feds s 0%nat)); try discriminate. injection St as <- <-. apply Loc. easy.
  - injection St as <- <-. apply Loc. easy.
  - unfold handle in St. destruct (ups (feds s 0%nat)) as [|[t|t|] l]; [discriminate|..].
    + unfold on_request in St. rewrite D4, D7, (Mk _ D4 D6) in St. cbn [fst] in St. injection St as <- <-. apply (Han _ [] l [Proposed 0 t]); auto. intros j u [H|[]]. discriminate.
    + unfold on_reply in St. destruct (raise_spec (coord s) t) as (R1 & R2 & R3 & R4 & R5 & R6). rewrite Mk in St by congruence. cbn [fst] in St. injection St as <- <-. apply (Han _ [] l [Proposed 0 t]); try congruence. intros j u [H|[]]. discriminate.
    + injection St as <- <-. apply (Han _ [] l [Left 0]); auto. intros j u [H|[]]. discriminate.
Qed.
Lemma dead_later s es s' es' : dead s es -> later 2 s es s' es' -> dead s' es'.
Proof. intros D L. induction L; [exact D|]. eapply dead_step; eassumption. Qed.

(** ** Running *)
Fixpoint run (n : nat) (s : state) (es : list event) (os : list op) : option (state * list event) :=
  match os with
  | [] => Some (s, es)
  | o :: os => match step n s o with Some (s', es') => run n s' (es ++ es') os | None => None end
  end.
Lemma run_exec n start stops os : forall s es s' es', exec n start stops s es -> Forall (allowed n) os -> run n s es os = Some (s', es') -> exec n start stops s' es'.
Proof.
  induction os as [|o os IH]; intros s es s' es' X A R; cbn in R; [now injection R as <- <-|].
  destruct (step n s o) as [[s1 es1]|] eqn:St; [|discriminate]. apply Forall_cons_iff in A. destruct A as (A1 & A2). eapply IH; [|exact A2|exact R]. eapply exec_step; eassumption.
Qed.
