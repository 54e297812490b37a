(** Proofs about the authentication of federates. *)
From Verif Require Import Base CText Net NetSpec NetProofs Admission Duet DuetSpec DuetProofs Join JoinSpec JoinProofs Auth AuthSpec.
Local Open Scope Z_scope.

Lemma same_iff : forall a b, same_bytes a b = true <-> a = b.
Proof.
  induction a as [|x a IH]; intros [|y b]; cbn [same_bytes]; try (split; [discriminate|discriminate]); [split; reflexivity|].
  rewrite andb_true_iff, Z.eqb_eq, IH. split; [intros [-> ->]; reflexivity|intros E; injection E as -> ->; split; reflexivity].
Qed.
Lemma same_refl a : same_bytes a a = true.
Proof. apply same_iff. reflexivity. Qed.

(** ** What a program reads and sends. *)
Inductive talks {A} : proc A -> list Z -> list Z -> proc A -> Prop :=
| t_refl p : talks p [] [] p
| t_send b p c s q : talks p c s q -> talks (Send b p) c (b ++ s) q
| t_recv n e k b c s q : length b = n -> talks (k b) c s q -> talks (Recv n e k) (b ++ c) s q
| t_eof n e k b c s q : (length b < n)%nat -> talks e c s q -> talks (Recv n e k) (b ++ c) s q.
Lemma run_one {A B} : forall l (s : duet A B), exists c, talks (one s) c (said_one l s) (one (run l s)) /\ to_one s ++ said_two l s = c ++ to_one (run l s).
Proof.
  induction l as [|b l IH]; intros s; cbn [run said_one said_two].
  { exists []. split; [constructor|]. rewrite app_nil_r. reflexivity. }
  destruct (step b s) as [s'|] eqn:ST; [|apply IH]. destruct b; unfold step in ST.
  - destruct (one s) as [cl a|x p|n e k]; cbn [act] in ST; [discriminate| |].
    + injection ST as <-. destruct (IH (mkDuet p (two s) (to_two s ++ x) (to_one s))) as (c & T & EQ). exists c. cbn [one to_one utterance app] in *. split; [constructor; exact T|exact EQ].
    + cbn [utterance app]. destruct (Nat.leb_spec n (length (to_one s))) as [L|L].
      * injection ST as <-. destruct (IH (mkDuet (k (firstn n (to_one s))) (two s) (to_two s ++ []) (skipn n (to_one s)))) as (c & T & EQ). cbn [one to_one] in *.
        exists (firstn n (to_one s) ++ c). split; [constructor; [apply firstn_length_le; exact L|exact T]|]. rewrite <- app_assoc, <- EQ, app_assoc, firstn_skipn. reflexivity.
      * destruct (closed (two s)); [|discriminate]. injection ST as <-. destruct (IH (mkDuet e (two s) (to_two s ++ []) [])) as (c & T & EQ). cbn [one to_one app] in *.
        exists (to_one s ++ c). split; [apply t_eof; [exact L|exact T]|]. rewrite <- app_assoc, <- EQ. reflexivity.
  - assert (X : one s' = one s /\ to_one s' = to_one s ++ utterance (two s)).
    { destruct (two s) as [cl a|x p|n e k]; cbn [act] in ST; [discriminate| |].
      - injection ST as <-. split; reflexivity.
      - destruct (n <=? length (to_two s))%nat; [|destruct (closed (one s)); [|discriminate]]; injection ST as <-; split; reflexivity. }
    destruct X as [X1 X2]. destruct (IH s') as (c & T & EQ). exists c. cbn [app]. rewrite X1 in T. rewrite X2, <- app_assoc in EQ. split; assumption.
Qed.
Lemma run_two {A B} : forall l (s : duet A B), exists c, talks (two s) c (said_two l s) (two (run l s)) /\ to_two s ++ said_one l s = c ++ to_two (run l s).
Proof.
  induction l as [|b l IH]; intros s; cbn [run said_one said_two].
  { exists []. split; [constructor|]. rewrite app_nil_r. reflexivity. }
  destruct (step b s) as [s'|] eqn:ST; [|apply IH]. destruct b; unfold step in ST.
  - assert (X : two s' = two s /\ to_two s' = to_two s ++ utterance (one s)).
    { destruct (one s) as [cl a|x p|n e k]; cbn [act] in ST; [discriminate| |].
      - injection ST as <-. split; reflexivity.
      - destruct (n <=? length (to_one s))%nat; [|destruct (closed (two s)); [|discriminate]]; injection ST as <-; split; reflexivity. }
    destruct X as [X1 X2]. destruct (IH s') as (c & T & EQ). exists c. cbn [app]. rewrite X1 in T. rewrite X2, <- app_assoc in EQ. split; assumption.
  - destruct (two s) as [cl a|x p|n e k]; cbn [act] in ST; [discriminate| |].
    + injection ST as <-. destruct (IH (mkDuet (one s) p (to_two s) (to_one s ++ x))) as (c & T & EQ). exists c. cbn [two to_two utterance app] in *. split; [constructor; exact T|exact EQ].
    + cbn [utterance app]. destruct (Nat.leb_spec n (length (to_two s))) as [L|L].
      * injection ST as <-. destruct (IH (mkDuet (one s) (k (firstn n (to_two s))) (skipn n (to_two s)) (to_one s ++ []))) as (c & T & EQ). cbn [two to_two] in *.
        exists (firstn n (to_two s) ++ c). split; [constructor; [apply firstn_length_le; exact L|exact T]|]. rewrite <- app_assoc, <- EQ, app_assoc, firstn_skipn. reflexivity.
      * destruct (closed (one s)); [|discriminate]. injection ST as <-. destruct (IH (mkDuet (one s) e [] (to_one s ++ []))) as (c & T & EQ). cbn [two to_two app] in *.
        exists (to_two s ++ c). split; [apply t_eof; [exact L|exact T]|]. rewrite <- app_assoc, <- EQ. reflexivity.
Qed.
Lemma talks_over {A} (c : bool) (a : A) x s q : talks (Over c a) x s q -> x = [] /\ s = [] /\ q = Over c a.
Proof. inversion 1; subst. repeat split. Qed.
Lemma talks_send {A} b (p : proc A) x s q : talks (Send b p) x s q -> (x = [] /\ s = [] /\ q = Send b p) \/ exists s', s = b ++ s' /\ talks p x s' q.
Proof. inversion 1; subst; [left; repeat split|right; eexists; split; [reflexivity|assumption]]. Qed.
Lemma talks_recv {A} n e k x s (q : proc A) : talks (Recv n e k) x s q ->
  (x = [] /\ s = [] /\ q = Recv n e k) \/ (exists b c, x = b ++ c /\ length b = n /\ talks (k b) c s q) \/ (exists b c, x = b ++ c /\ (length b < n)%nat /\ talks e c s q).
Proof.
  inversion 1; subst.
  - left. repeat split.
  - right. left. do 2 eexists. split; [reflexivity|]. split; [reflexivity|assumption].
  - right. right. do 2 eexists. split; [reflexivity|]. split; assumption.
Qed.
Lemma talks_fail c0 (a : rti_end) c s i : talks (Over true a) c s (Over c0 (Admitted i)) -> c0 = false -> False.
Proof. intros T ->. apply talks_over in T. destruct T as (_ & _ & E). discriminate. Qed.

(** ** The two programs authenticate each other. *)
Lemma auth_both h nf nr given f c p q fin : hash32 h -> length nf = 8%nat -> length nr = 8%nat -> federation_id (c_rti c) = f_federation f ->
  goes (mkDuet p q [] []) fin -> goes (meet (fed_auth h nf given f p) (rti_auth h nr c q)) fin.
Proof.
  intros H LF LR ID G. unfold meet, fed_auth, rti_auth. apply one_sends. cbn [app].
  match goal with |- goes (mkDuet _ _ ?u _) _ => replace u with (u ++ []) by apply app_nil_r end.
  apply two_reads; [cbn [length app]; unfold NONCE_LENGTH; rewrite app_length, LF; reflexivity|].
  change (nth 0 (MSG_TYPE_FED_NONCE :: encode_uint16 (Z.of_nat (f_id f)) ++ nf) 0) with MSG_TYPE_FED_NONCE. rewrite Z.eqb_refl. cbn [negb skipn].
  apply two_sends. cbn [app].
  match goal with |- goes (mkDuet _ _ _ ?u) _ => replace u with (u ++ []) by apply app_nil_r end.
  apply one_reads; [cbn [length]; rewrite app_length, LR, H; reflexivity|].
  match goal with |- goes (mkDuet (if negb (nth 0 (?x :: ?y) 0 =? _) then _ else _) _ _ _) _ => change (nth 0 (x :: y) 0) with x end. rewrite Z.eqb_refl. cbn [negb].
  set (tag := h (key (federation_id (c_rti c))) (MSG_TYPE_RTI_RESPONSE :: encode_uint16 (Z.of_nat (f_id f)) ++ nf)) in *.
  change (skipn (1 + NONCE_LENGTH) (MSG_TYPE_RTI_RESPONSE :: nr ++ tag)) with (skipn 8 (nr ++ tag)).
  change (firstn NONCE_LENGTH (skipn 1 (MSG_TYPE_RTI_RESPONSE :: nr ++ tag))) with (firstn 8 (nr ++ tag)).
  assert (S8 : skipn 8 (nr ++ tag) = tag).
  { rewrite skipn_app, LR, skipn_all2 by lia. reflexivity. }
  assert (F8 : firstn 8 (nr ++ tag) = nr).
  { rewrite firstn_app, LR, Nat.sub_diag, (@firstn_all2 _ 8 nr) by lia. apply app_nil_r. }
  rewrite S8. change (firstn NONCE_LENGTH (nr ++ tag)) with (firstn 8 (nr ++ tag)). rewrite F8. subst tag. rewrite ID, same_refl. apply one_sends. cbn [app].
  match goal with |- goes (mkDuet _ _ ?u _) _ => replace u with (u ++ []) by apply app_nil_r end.
  apply two_reads; [cbn [length]; rewrite H; reflexivity|].
  match goal with |- goes (mkDuet _ (if negb (nth 0 (?x :: ?y) 0 =? _) then _ else _) _ _) _ => change (nth 0 (x :: y) 0) with x end. rewrite Z.eqb_refl. cbn [negb skipn].
  rewrite same_refl. exact G.
Qed.
Lemma join_auth_ends h nf nr given f c : hash32 h -> length nf = 8%nat -> length nr = 8%nat -> can_talk f c -> agree f c ->
  always_ends (meet (fed_join_auth h nf given f) (rti_join_auth h nr c))
    (mkDuet (Over false (Joined (match f_mode f with ModeOff => [] | _ => c_times c end))) (Over false (Admitted (stored f c))) (proposal f) []).
Proof.
  intros H LF LR J A. apply goes_ends; [|apply stuck_over]. apply auth_both; try assumption; [apply (J_id f c J)|]. apply join_goes; assumption.
Qed.

(** ** Nobody else is admitted. *)
Lemma rti_inv h nr c q x s i : hash32 h -> talks (rti_auth h nr c q) x s (Over false (Admitted i)) ->
  exists hello rest, length hello = 11%nat /\ x = hello ++ [102] ++ fed_tag h (federation_id (c_rti c)) nr ++ rest.
Proof.
  intros H T. unfold rti_auth in T. apply talks_recv in T. destruct T as [(_ & _ & E)|[(b & r & -> & L & T)|(b & r & _ & _ & T)]]; [discriminate| |apply talks_fail in T; [destruct T|reflexivity]].
  destruct (nth 0 b 0 =? MSG_TYPE_FED_NONCE); cbn [negb] in T; [|apply talks_fail in T; [destruct T|reflexivity]].
  apply talks_send in T. destruct T as [(_ & _ & E)|(s' & _ & T)]; [discriminate|].
  apply talks_recv in T. destruct T as [(_ & _ & E)|[(d & r' & -> & L' & T)|(d & r' & _ & _ & T)]]; [discriminate| |apply talks_fail in T; [destruct T|reflexivity]].
  destruct (Z.eqb_spec (nth 0 d 0) MSG_TYPE_FED_RESPONSE) as [e|ne]; cbn [negb] in T; [|apply talks_fail in T; [destruct T|reflexivity]].
  destruct (same_bytes _ _) eqn:SB in T.
  - apply same_iff in SB. exists b, r'. split; [exact L|]. f_equal. destruct d as [|d0 d]; [discriminate|]. cbn [nth skipn] in e, SB. subst d0 d. reflexivity.
  - apply talks_send in T. destruct T as [(_ & _ & E)|(s2 & _ & T)]; [discriminate|]. apply talks_fail in T; [destruct T|reflexivity].
Qed.
Lemma fed_inv h nf given f p x s q : talks (fed_auth h nf given f p) x s q ->
  (exists rn rest, length rn = 8%nat /\ x = [101] ++ rn ++ rti_tag h (f_federation f) (f_id f) nf ++ rest) \/
  s = [] \/ s = [100] ++ encode_uint16 (Z.of_nat (f_id f)) ++ nf \/ s = ([100] ++ encode_uint16 (Z.of_nat (f_id f)) ++ nf) ++ [0; 6].
Proof.
  intros T. unfold fed_auth in T. apply talks_send in T. destruct T as [(_ & -> & _)|(s' & -> & T)]; [right; left; reflexivity|].
  assert (F : forall x s', talks (fed_fails given) x s' q -> s' = []).
  { intros x0 s0 T0. unfold fed_fails in T0. apply talks_over in T0. tauto. }
  apply talks_recv in T. destruct T as [(_ & -> & _)|[(b & r & -> & L & T)|(b & r & _ & _ & T)]].
  - right. right. left. rewrite app_nil_r. reflexivity.
  - destruct (Z.eqb_spec (nth 0 b 0) MSG_TYPE_RTI_RESPONSE) as [e|ne]; cbn [negb] in T.
    + destruct (same_bytes _ _) eqn:SB in T.
      * left. apply same_iff in SB. destruct b as [|b0 b]; [discriminate|]. cbn [nth] in e. subst b0. unfold NONCE_LENGTH in SB. cbn [Nat.add skipn] in SB.
        exists (firstn 8 b), r. cbn [length] in L. unfold NONCE_LENGTH, HMAC_LENGTH in L. split; [rewrite firstn_length; lia|].
        change ([101] ++ firstn 8 b ++ rti_tag h (f_federation f) (f_id f) nf ++ r) with (MSG_TYPE_RTI_RESPONSE :: firstn 8 b ++ rti_tag h (f_federation f) (f_id f) nf ++ r).
        cbn [app]. f_equal. unfold rti_tag. change (firstn 255 (f_federation f)) with (key (f_federation f)).
        change ([101] ++ encode_uint16 (Z.of_nat (f_id f)) ++ nf) with (MSG_TYPE_RTI_RESPONSE :: encode_uint16 (Z.of_nat (f_id f)) ++ nf). rewrite <- SB, app_assoc, firstn_skipn. reflexivity.
      * apply talks_send in T. destruct T as [(_ & -> & _)|(s2 & -> & T)].
        -- right. right. left. rewrite app_nil_r. reflexivity.
        -- apply F in T. subst s2. right. right. right. reflexivity.
    + apply F in T. subst s'. right. right. left. rewrite app_nil_r. reflexivity.
  - apply F in T. subst s'. right. right. left. rewrite app_nil_r. reflexivity.
Qed.
(** The federation id goes over the wire. *)
Lemma talks_fed_fail c (a : fed_end) x s times : talks (Over c a) x s (Over false (Joined times)) -> c = true -> False.
Proof. intros T ->. apply talks_over in T. destruct T as (_ & _ & E). discriminate. Qed.
Lemma contains4 a b c x v : contains (a ++ b ++ c ++ x ++ v) x.
Proof. exists (a ++ b ++ c), v. rewrite <- !app_assoc. reflexivity. Qed.
Lemma fed_reveals h nf given f x s times : talks (fed_join_auth h nf given f) x s (Over false (Joined times)) -> contains s (firstn 255 (f_federation f)).
Proof.
  intros T. unfold fed_join_auth, fed_auth in T. apply talks_send in T. destruct T as [(_ & _ & E)|(s' & -> & T)]; [discriminate|].
  apply talks_recv in T. destruct T as [(_ & _ & E)|[(b & r & _ & _ & T)|(b & r & _ & _ & T)]]; [discriminate| |unfold fed_fails in T; apply talks_fed_fail in T; [destruct T|reflexivity]].
  destruct (nth 0 b 0 =? MSG_TYPE_RTI_RESPONSE); cbn [negb] in T; [|unfold fed_fails in T; apply talks_fed_fail in T; [destruct T|reflexivity]].
  destruct (same_bytes _ _) in T.
  - apply talks_send in T. destruct T as [(_ & _ & E)|(s2 & -> & T)]; [discriminate|].
    unfold fed_join in T. apply talks_send in T. destruct T as [(_ & _ & E)|(s3 & -> & T)]; [discriminate|].
    apply talks_send in T. destruct T as [(_ & _ & E)|(s4 & -> & T)]; [discriminate|].
    apply contains4.
  - apply talks_send in T. destruct T as [(_ & _ & E)|(s2 & -> & T)]; [discriminate|]. unfold fed_fails in T; apply talks_fed_fail in T; [destruct T|reflexivity].
Qed.

(** ** What goes wrong. *)
Lemma wrong_key_goes h nf nr given f c p q : hash32 h -> length nf = 8%nat -> length nr = 8%nat ->
  rti_tag h (federation_id (c_rti c)) (f_id f) nf <> rti_tag h (f_federation f) (f_id f) nf ->
  goes (meet (fed_auth h nf given f p) (rti_auth h nr c q)) (mkDuet (fed_fails given) (Over true RtiExits) [] []).
Proof.
  intros H LF LR NE. unfold meet, fed_auth, rti_auth. apply one_sends. cbn [app].
  match goal with |- goes (mkDuet _ _ ?u _) _ => replace u with (u ++ []) by apply app_nil_r end.
  apply two_reads; [cbn [length app]; unfold NONCE_LENGTH; rewrite app_length, LF; reflexivity|].
  change (nth 0 (MSG_TYPE_FED_NONCE :: encode_uint16 (Z.of_nat (f_id f)) ++ nf) 0) with MSG_TYPE_FED_NONCE. rewrite Z.eqb_refl. cbn [negb skipn].
  apply two_sends. cbn [app].
  match goal with |- goes (mkDuet _ _ _ ?u) _ => replace u with (u ++ []) by apply app_nil_r end.
  apply one_reads; [cbn [length]; rewrite app_length, LR, H; reflexivity|].
  match goal with |- goes (mkDuet (if negb (nth 0 (?x :: ?y) 0 =? _) then _ else _) _ _ _) _ => change (nth 0 (x :: y) 0) with x end. rewrite Z.eqb_refl. cbn [negb].
  set (tag := h (key (federation_id (c_rti c))) (MSG_TYPE_RTI_RESPONSE :: encode_uint16 (Z.of_nat (f_id f)) ++ nf)) in *.
  change (skipn (1 + NONCE_LENGTH) (MSG_TYPE_RTI_RESPONSE :: nr ++ tag)) with (skipn 8 (nr ++ tag)).
  change (firstn NONCE_LENGTH (skipn 1 (MSG_TYPE_RTI_RESPONSE :: nr ++ tag))) with (firstn 8 (nr ++ tag)).
  assert (S8 : skipn 8 (nr ++ tag) = tag).
  { rewrite skipn_app, LR, skipn_all2 by lia. reflexivity. }
  rewrite S8. destruct (same_bytes _ _) eqn:SB; [apply same_iff in SB; destruct (NE SB)|]. apply one_sends. cbn [app].
  unfold fed_fails. apply two_eof; [cbn [length]; unfold HMAC_LENGTH; lia|]. apply goes_refl.
Qed.

(** What becomes of a program that sends the two messages of the authentication. *)
Lemma outsider_goes h nr c q hello type tag : length hello = 10%nat -> length tag = 32%nat -> fed_tag h (federation_id (c_rti c)) nr <> tag ->
  goes (meet (Send (100 :: hello) (Send (type :: tag) (Over false tt))) (rti_auth h nr c q))
    (if type =? 102 then mkDuet (Over false tt) (Over true Dropped) [] ((101 :: nr ++ h (firstn 255 (federation_id (c_rti c))) (101 :: hello)) ++ [0; 6])
     else mkDuet (Over false tt) (Over true RtiExits) [] (101 :: nr ++ h (firstn 255 (federation_id (c_rti c))) (101 :: hello))).
Proof.
  intros LH LT NE. unfold meet, rti_auth. apply one_sends. apply one_sends. cbn [app].
  match goal with |- goes (mkDuet ?p ?r (100 :: hello ++ type :: tag) []) ?fin => change (goes (mkDuet p r ((100 :: hello) ++ type :: tag) []) fin) end.
  apply two_reads; [cbn [length]; rewrite LH; reflexivity|].
  change (nth 0 (100 :: hello) 0) with MSG_TYPE_FED_NONCE. rewrite Z.eqb_refl. cbn [negb skipn]. apply two_sends. cbn [app].
  rewrite <- (app_nil_r (type :: tag)). apply two_reads; [cbn [length]; rewrite LT; reflexivity|].
  change (nth 0 (type :: tag) 0) with type. change MSG_TYPE_FED_RESPONSE with 102. destruct (type =? 102); cbn [negb]; [|apply goes_refl]. cbn [skipn].
  destruct (same_bytes _ _) eqn:SB; [apply same_iff in SB; destruct NE; symmetry; exact SB|]. apply two_sends. apply goes_refl.
Qed.
