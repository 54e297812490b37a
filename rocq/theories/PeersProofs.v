(** Proofs about the direct connections between federates. *)
From Verif Require Import Base CText Net NetSpec NetProofs Admission Peers PeersSpec.
Local Open Scope Z_scope.

(** ** Bytes. *)
Lemma int32_back b p : in_int32 p -> extract_int32 b (encode_int32 p) 0 = Ok p.
Proof. intros H. pose proof (extract_int32_at b [] [] p H) as X. cbn [app length] in X. rewrite app_nil_r in X. exact X. Qed.
Lemma uint16_back b p : in_uint16 p -> extract_uint16 b (encode_uint16 p) 0 = Ok p.
Proof. intros H. pose proof (extract_uint16_at b [] [] p H) as X. cbn [app length] in X. rewrite app_nil_r in X. exact X. Qed.
Lemma port_int32 p : 1 <= p <= 65535 -> in_int32 p.
Proof. unfold in_int32. lia. Qed.
Lemma strn_raw_same k : forall a b more, (k <= length a)%nat -> firstn k a = firstn k b -> (k <= length b)%nat -> strn_raw k a (b ++ more) = Ok true.
Proof.
  induction k as [|k IH]; intros a b more L E L2; [reflexivity|]. destruct a as [|x a]; [cbn in L; lia|]. destruct b as [|y b]; [cbn in L2; lia|].
  cbn [firstn] in E. assert (x = y) by congruence. subst y. cbn [app strn_raw]. rewrite Z.eqb_refl. apply IH; cbn [length] in *; try lia. congruence.
Qed.
Lemma strn_raw_differs k : forall i a b x y, (i < k)%nat -> nth_error a i = Some x -> nth_error b i = Some y -> x <> y -> strn_raw k a b = Ok false.
Proof.
  induction k as [|k IH]; intros i a b x y L A B N; [lia|]. destruct i as [|i]; destruct a as [|u a]; destruct b as [|v b]; cbn [nth_error] in A, B; try discriminate.
  - assert (u = x) by congruence. assert (v = y) by congruence. subst. cbn [strn_raw]. destruct (Z.eqb_spec x y); [contradiction|reflexivity].
  - cbn [strn_raw]. destruct (Z.eqb_spec u v); [|reflexivity]. apply (IH i a b x y); try assumption. lia.
Qed.
Lemma hello_accepted s g f : federation s -> (f < n s)%nat -> accept_check s g (hello s f) = Ok (Ack f).
Proof.
  intros F L. pose proof (F_size s F) as N. unfold accept_check, hello.
  assert (E2 : encode_uint16 (Z.of_nat f) = little_endian 2 (Z.of_nat f)) by apply encode_uint16_le.
  pose proof (le_2 (Z.of_nat f)) as LE. rewrite LE in E2.
  set (m := Z.of_nat (Nat.min (length (my_id s)) 255)).
  assert (X : extract_uint16 (big s g) ([MSG_TYPE_P2P_SENDING_FED_ID] ++ encode_uint16 (Z.of_nat f) ++ ([m] ++ firstn 255 (my_id s))) (length [MSG_TYPE_P2P_SENDING_FED_ID]) = Ok (Z.of_nat f)).
  { apply extract_uint16_at. unfold in_uint16. lia. }
  cbn [length] in X. rewrite E2 in *. cbn [app length] in X |- *.
  assert ((S (S (S (S (length (firstn 255 (my_id s)))))) <? 4)%nat = false) as -> by (apply Nat.ltb_ge; lia).
  cbn [nth skipn]. rewrite Z.eqb_refl. cbn [negb]. unfold bind at 1. rewrite X.
  rewrite firstn_length. subst m. rewrite Nat2Z.id, (Nat.min_comm 255).
  rewrite (proj2 (Nat.ltb_ge _ _)) by lia. unfold check_p2p. cbn [m_type m_id m_fed]. rewrite Z.eqb_refl. cbn [negb].
  rewrite Nat2Z.id.
  assert (Y : strn_raw (Nat.min (length (my_id s)) 255) (my_id s) (firstn (Nat.min (length (my_id s)) 255) (firstn 255 (my_id s))) = Ok true).
  { rewrite <- (app_nil_r (firstn _ (firstn _ _))). apply strn_raw_same.
    - lia.
    - rewrite firstn_firstn. rewrite firstn_firstn. f_equal. lia.
    - rewrite firstn_length, firstn_length. lia. }
  rewrite Y. cbn [bind]. rewrite (proj2 (Nat.ltb_lt _ _)) by assumption. reflexivity.
Qed.
Lemma foreign_refused s g bytes : foreign s bytes -> exists a, accept_check s g bytes = Ok a /\ (forall f, a <> Ack f).
Proof.
  intros H. unfold accept_check.
  destruct (Nat.ltb_spec (length bytes) 4) as [L|L]; [eexists; split; [reflexivity|discriminate]|].
  destruct (Z.eqb_spec (nth 0 bytes 0) MSG_TYPE_P2P_SENDING_FED_ID) as [E|NE]; cbn [negb]; [|eexists; split; [reflexivity|discriminate]].
  destruct H as [H|[H|H]]; [lia|contradiction|]. destruct H as (a & b & id & more & -> & (i & x & y & I & A & B & D)).
  assert (X : exists q, extract_uint16 (big s g) ([MSG_TYPE_P2P_SENDING_FED_ID; a; b; Z.of_nat (length id)] ++ id ++ more) 1 = Ok q).
  { unfold extract_uint16, bytes_at. destruct (Nat.leb_spec (1 + 2) (length ([MSG_TYPE_P2P_SENDING_FED_ID; a; b; Z.of_nat (length id)] ++ id ++ more))); [|lia].
    cbn [bind]. eexists. reflexivity. }
  destruct X as [q X]. cbn [app nth skipn] in *. unfold bind at 1. rewrite X. rewrite Nat2Z.id.
  rewrite (proj2 (Nat.ltb_ge _ _)) by (rewrite app_length; lia).
  unfold check_p2p. cbn [m_type m_id m_fed]. rewrite Z.eqb_refl. cbn [negb].
  rewrite firstn_app, Nat.sub_diag, firstn_all, app_nil_r.
  assert (IL : (i < length (my_id s))%nat) by (apply nth_error_Some; congruence).
  rewrite (strn_raw_differs _ i (my_id s) id x y) by (assumption || lia). cbn [bind].
  eexists. split; [reflexivity|discriminate].
Qed.

(** ** The invariant. *)
Definition is_query (m : msg) : bool := match m with MQuery _ => true | _ => false end.
Definition queries (l : list msg) : nat := length (filter is_query l).
Definition is_asked (p : phase) : bool := match p with Asked => true | _ => false end.
Definition good_conn s (st : net) (c f g : nat) (a : option bool) : Prop := nth_error (conns st) c = Some (mkConn (Some f) g (hello s f) a).

Record Inv (s : static) (st : net) : Prop := {
  V_table : forall g, table st g = -1 \/ sport (feds st g) = Some (table st g);
  V_port : forall g p, sport (feds st g) = Some p -> 1 <= p <= 65535 /\ (g < n s)%nat;
  V_uniq : forall f g p, host s f = host s g -> sport (feds st f) = Some p -> sport (feds st g) = Some p -> f = g;
  V_up : forall f m, In m (up (feds st f)) ->
    match m with
    | MAd b => exists p, sport (feds st f) = Some p /\ b = encode_int32 p
    | MQuery b => exists g r, todo (feds st f) = g :: r /\ b = encode_uint16 (Z.of_nat g)
    end;
  V_asked : forall f, (queries (up (feds st f)) + length (down (feds st f)))%nat = (if is_asked (ph (feds st f)) then 1 else 0)%nat;
  V_down : forall f b a, In (b, a) (down (feds st f)) ->
    exists g r q, todo (feds st f) = g :: r /\ b = encode_int32 q /\ a = addr s g /\ (q = -1 \/ sport (feds st g) = Some q);
  V_conn : forall f a p, ph (feds st f) = Connecting a p -> exists g r, todo (feds st f) = g :: r /\ a = addr s g /\ sport (feds st g) = Some p;
  V_shake : forall f a p c, ph (feds st f) = Shaking a p c ->
    exists g r x, todo (feds st f) = g :: r /\ a = addr s g /\ sport (feds st g) = Some p /\ good_conn s st c f g x /\
      match x with None => True | Some true => In (f, c) (ins (feds st g)) | Some false => False end;
  V_exit : forall f, ph (feds st f) <> Exited;
  V_nodup : forall f, NoDup (map fst (outs (feds st f)) ++ todo (feds st f));
  V_peers : forall f g, In g (map fst (outs (feds st f)) ++ todo (feds st f)) -> In g (peers s f);
  V_outs : forall f g c, In (g, c) (outs (feds st f)) -> good_conn s st c f g (Some true) /\ In (f, c) (ins (feds st g));
  V_ins : forall g f c, In (f, c) (ins (feds st g)) -> good_conn s st c f g (Some true) /\ In g (peers s f) /\
    ((exists a p, ph (feds st f) = Shaking a p c) \/ In (g, c) (outs (feds st f)));
  V_once : forall g, NoDup (map fst (ins (feds st g)));
  V_backlog : forall g c, In c (backlog (feds st g)) -> exists k, nth_error (conns st) c = Some k /\ server k = g /\ answered k = None /\
    match client k with
    | Some f => sent k = hello s f /\ (exists a p, ph (feds st f) = Shaking a p c)
    | None => foreign s (sent k)
    end;
  V_wait : forall g, NoDup (backlog (feds st g)) }.

Lemma fupd_same {A} (f : nat -> A) i x : fupd f i x i = x.
Proof. unfold fupd. rewrite Nat.eqb_refl. reflexivity. Qed.
Lemma fupd_other {A} (f : nat -> A) i x j : j <> i -> fupd f i x j = f j.
Proof. intros H. unfold fupd. destruct (Nat.eqb_spec j i); [contradiction|reflexivity]. Qed.
Lemma fupd_cases {A} (f : nat -> A) i x j : (j = i /\ fupd f i x j = x) \/ (j <> i /\ fupd f i x j = f j).
Proof. destruct (Nat.eq_dec j i) as [->|ne]; [left; split; [reflexivity|apply fupd_same]|right; split; [assumption|apply fupd_other; assumption]]. Qed.

Lemma inv_start s : federation s -> Inv s (start s).
Proof.
  intros F. split; cbn [feds table conns start ph todo sport up down backlog outs ins]; intros; cbn [In map app] in *; try contradiction; try discriminate.
  - left. reflexivity.
  - reflexivity.
  - apply (F_once s F).
  - assumption.
  - constructor.
  - constructor.
Qed.

Lemma queries_app l m : queries (l ++ [m]) = (queries l + if is_query m then 1 else 0)%nat.
Proof. unfold queries. rewrite filter_app, app_length. cbn [filter]. destruct (is_query m); reflexivity. Qed.
Lemma queries_cons m l : queries (m :: l) = ((if is_query m then 1 else 0) + queries l)%nat.
Proof. unfold queries. cbn [filter]. destruct (is_query m); reflexivity. Qed.

(** One federate changes, apart from its queues with the coordinator and its phase
    nothing else does. *)
Ltac who i j := destruct (Nat.eq_dec i j) as [?|?]; [subst i|]; rewrite ?fupd_same, ?fupd_other in * by assumption.
Ltac flds := cbn [ph todo sport up down backlog outs ins with_ph with_todo with_sport with_up with_down with_backlog with_outs with_ins] in *.

Lemma listener_none s st h p : listener s st h p = None -> forall g, (g < n s)%nat -> host s g = h -> sport (feds st g) <> Some p.
Proof.
  intros E g L H S0. pose proof (find_none _ _ E g) as X. rewrite in_seq in X. specialize (X ltac:(lia)).
  unfold listens in X. rewrite H, S0, Nat.eqb_refl, Z.eqb_refl in X. discriminate.
Qed.
Lemma listener_some s st h p g : listener s st h p = Some g -> (g < n s)%nat /\ host s g = h /\ sport (feds st g) = Some p.
Proof.
  intros E. apply find_some in E. destruct E as [I B]. apply in_seq in I. unfold listens in B. apply andb_true_iff in B. destruct B as [B1 B2].
  apply Nat.eqb_eq in B1. destruct (sport (feds st g)) as [q|]; [|discriminate]. apply Z.eqb_eq in B2. subst. split; [lia|]. split; reflexivity.
Qed.

Lemma step_serve s f p st : federation s -> Inv s st -> exists st', step s (Serve f p) st = Ok st' /\ Inv s st'.
Proof.
  intros F V. cbn [step]. destruct (sport (feds st f)) as [q|] eqn:SP; [eexists; split; [reflexivity|assumption]|].
  destruct (ph (feds st f)) eqn:PH; try (eexists; split; [reflexivity|assumption]).
  destruct (_ && _) eqn:B; [|eexists; split; [reflexivity|assumption]].
  eexists. split; [reflexivity|]. repeat rewrite andb_true_iff in B. destruct B as [[[B1 B2] B3] B4].
  apply Nat.ltb_lt in B1. apply Z.leb_le in B2, B3.
  assert (LN : listener s st (host s f) p = None) by (destruct (listener s st (host s f) p); [discriminate|reflexivity]). clear B4.
  pose proof (listener_none _ _ _ _ LN) as FREE.
  assert (MONO : forall g q, sport (feds st g) = Some q -> sport (fupd (feds st) f (with_up (up (feds st f) ++ [MAd (encode_int32 p)]) (with_sport (Some p) (feds st f))) g) = Some q).
  { intros g q E. who g f; [congruence|assumption]. }
  destruct V. split; unfold set_fed; cbn [feds table conns].
  - intros g. who g f; flds; [|apply V_table0]. left. destruct (V_table0 f) as [E|E]; [assumption|congruence].
  - intros g q. who g f; flds; [|apply V_port0]. intros E. injection E as <-. split; [lia|assumption].
  - intros a b q H E1 E2. who a f; who b f; flds; try reflexivity.
    + exfalso. injection E1 as <-. apply (FREE b); [apply (V_port0 b p E2)|congruence|assumption].
    + exfalso. injection E2 as <-. apply (FREE a); [apply (V_port0 a p E1)|congruence|assumption].
    + apply (V_uniq0 a b q); assumption.
  - intros a m. who a f; flds; [|apply V_up0]. rewrite in_app_iff. intros [I|[<-|[]]].
    + specialize (V_up0 f m I). destruct m; [|assumption]. destruct V_up0 as (q & E & _). congruence.
    + exists p. split; reflexivity.
  - intros a. who a f; flds; [|apply V_asked0]. rewrite queries_app. cbn [is_query]. rewrite Nat.add_0_r. apply V_asked0.
  - intros a b x. who a f; flds; intros I.
    + destruct (V_down0 f b x I) as (g & r & q & E1 & E2 & E3 & [E4|E4]); exists g, r, q; repeat split; auto.
    + destruct (V_down0 a b x I) as (g & r & q & E1 & E2 & E3 & [E4|E4]); exists g, r, q; repeat split; auto.
  - intros a b x. who a f; flds; intros I.
    + destruct (V_conn0 f b x I) as (g & r & E1 & E2 & E3); exists g, r; repeat split; auto.
    + destruct (V_conn0 a b x I) as (g & r & E1 & E2 & E3); exists g, r; repeat split; auto.
  - intros a b x c I. assert (I' : ph (feds st a) = Shaking b x c) by (who a f; flds; assumption). clear I.
    destruct (V_shake0 a b x c I') as (g & r & y & E1 & E2 & E3 & E4 & E5). exists g, r, y.
    split; [who a f; flds; assumption|]. split; [assumption|]. split; [apply MONO; assumption|]. split; [exact E4|]. destruct y as [[|]|]; auto. who g f; flds; assumption.
  - intros a. who a f; flds; apply V_exit0.
  - intros a. who a f; flds; apply V_nodup0.
  - intros a. who a f; flds; apply V_peers0.
  - intros a g c I. assert (I' : In (g, c) (outs (feds st a))) by (who a f; flds; assumption).
    destruct (V_outs0 a g c I') as [E1 E2]. split; [exact E1|]. who g f; flds; assumption.
  - intros g a c I. assert (I' : In (a, c) (ins (feds st g))) by (who g f; flds; assumption).
    destruct (V_ins0 g a c I') as (E1 & E2 & E3). split; [exact E1|]. split; [exact E2|]. who a f; flds; assumption.
  - intros g. who g f; flds; apply V_once0.
  - intros g c I. assert (I' : In c (backlog (feds st g))) by (who g f; flds; assumption).
    destruct (V_backlog0 g c I') as (k & E1 & E2 & E3 & E4). exists k. repeat split; try assumption.
    destruct (client k) as [a|]; [|assumption]. destruct E4 as [E4 (x & y & E5)]. split; [assumption|]. exists x, y. who a f; flds; assumption.
  - intros g. who g f; flds; apply V_wait0.
Qed.

(** One federate changes, but not its server. *)
Lemma change_one s st f x : Inv s st -> let y := feds st f in
  sport x = sport y -> backlog x = backlog y -> ins x = ins y ->
  (forall m, In m (up x) -> match m with
    | MAd b => exists p, sport y = Some p /\ b = encode_int32 p
    | MQuery b => exists g r, todo x = g :: r /\ b = encode_uint16 (Z.of_nat g) end) ->
  (queries (up x) + length (down x))%nat = (if is_asked (ph x) then 1 else 0)%nat ->
  (forall b a, In (b, a) (down x) -> exists g r q, todo x = g :: r /\ b = encode_int32 q /\ a = addr s g /\ (q = -1 \/ sport (feds st g) = Some q)) ->
  (forall a p, ph x = Connecting a p -> exists g r, todo x = g :: r /\ a = addr s g /\ sport (feds st g) = Some p) ->
  (forall a p c, ph x = Shaking a p c -> exists g r z, todo x = g :: r /\ a = addr s g /\ sport (feds st g) = Some p /\ good_conn s st c f g z /\
      match z with None => True | Some true => In (f, c) (ins (feds st g)) | Some false => False end) ->
  ph x <> Exited ->
  NoDup (map fst (outs x) ++ todo x) -> (forall g, In g (map fst (outs x) ++ todo x) -> In g (peers s f)) ->
  (forall g c, In (g, c) (outs x) -> good_conn s st c f g (Some true) /\ In (f, c) (ins (feds st g))) ->
  (forall g c, In (f, c) (ins (feds st g)) -> (exists a p, ph x = Shaking a p c) \/ In (g, c) (outs x)) ->
  (forall a p c k, ph y = Shaking a p c -> nth_error (conns st) c = Some k -> answered k = None -> exists a p, ph x = Shaking a p c) ->
  Inv s (set_fed st f x).
Proof.
  intros V y ES EB EI U A D C SH EX ND PE OU IN BA. subst y.
  assert (SP : forall g, sport (fupd (feds st) f x g) = sport (feds st g)) by (intros g; who g f; [assumption|reflexivity]).
  assert (BK : forall g, backlog (fupd (feds st) f x g) = backlog (feds st g)) by (intros g; who g f; [assumption|reflexivity]).
  assert (IS : forall g, ins (fupd (feds st) f x g) = ins (feds st g)) by (intros g; who g f; [assumption|reflexivity]).
  destruct V. split; unfold set_fed; cbn [feds table conns].
  - intros g. rewrite SP. apply V_table0.
  - intros g. rewrite SP. apply V_port0.
  - intros a b. rewrite !SP. apply V_uniq0.
  - intros a m. rewrite SP. who a f; [apply U|apply V_up0].
  - intros a. who a f; [assumption|apply V_asked0].
  - intros a b z I. who a f.
    + destruct (D b z I) as (g & r & q & E1 & E2 & E3 & E4). exists g, r, q. rewrite SP. auto.
    + destruct (V_down0 a b z I) as (g & r & q & E1 & E2 & E3 & E4). exists g, r, q. rewrite SP. auto.
  - intros a b z I. who a f.
    + destruct (C b z I) as (g & r & E1 & E2 & E3). exists g, r. rewrite SP. auto.
    + destruct (V_conn0 a b z I) as (g & r & E1 & E2 & E3). exists g, r. rewrite SP. auto.
  - intros a b z c I. who a f.
    + destruct (SH b z c I) as (g & r & w & E1 & E2 & E3 & E4 & E5). exists g, r, w. rewrite SP, IS. auto.
    + destruct (V_shake0 a b z c I) as (g & r & w & E1 & E2 & E3 & E4 & E5). exists g, r, w. rewrite SP, IS. auto.
  - intros a. who a f; [assumption|apply V_exit0].
  - intros a. who a f; [assumption|apply V_nodup0].
  - intros a. who a f; [assumption|apply V_peers0].
  - intros a g c. rewrite IS. who a f; [apply OU|apply V_outs0].
  - intros g a c. rewrite IS. intros I. destruct (V_ins0 g a c I) as (E1 & E2 & E3). split; [exact E1|]. split; [exact E2|]. who a f; [apply IN; assumption|assumption].
  - intros g. rewrite IS. apply V_once0.
  - intros g c. rewrite BK. intros I. destruct (V_backlog0 g c I) as (k & E1 & E2 & E3 & E4). exists k. repeat split; try assumption.
    destruct (client k) as [a|]; [|assumption]. destruct E4 as [E4 (u & v & E5)]. split; [assumption|]. who a f; [apply (BA u v c k); assumption|exists u, v; assumption].
  - intros g. rewrite BK. apply V_wait0.
Qed.

Lemma step_query s f st : federation s -> Inv s st -> exists st', step s (Query f) st = Ok st' /\ Inv s st'.
Proof.
  intros F V. cbn [step]. destruct (ph (feds st f)) eqn:PH; try (eexists; split; [reflexivity|assumption]).
  destruct (todo (feds st f)) as [|g r] eqn:TD; [eexists; split; [reflexivity|assumption]|].
  eexists. split; [reflexivity|]. apply change_one; flds; try reflexivity; try discriminate; try assumption.
  - intros m. rewrite in_app_iff. intros [I|[<-|[]]]; [apply (V_up s st V f m I)|]. exists g, r. split; [assumption|reflexivity].
  - rewrite queries_app. cbn [is_query is_asked]. pose proof (V_asked s st V f) as X. rewrite PH in X. cbn [is_asked] in X. lia.
  - apply (V_down s st V f).
  - apply (V_nodup s st V f).
  - apply (V_peers s st V f).
  - apply (V_outs s st V f).
  - intros h c I. destruct (V_ins s st V h f c I) as (_ & _ & [(a & p & E)|E]); [congruence|right; assumption].
  - intros a p c k E. congruence.
Qed.
Lemma queries_none l m : queries l = 0%nat -> In m l -> is_query m = false.
Proof.
  unfold queries. intros E I. destruct (is_query m) eqn:Q; [|reflexivity]. exfalso.
  assert (X : In m (filter is_query l)) by (apply filter_In; split; assumption). apply length_zero_iff_nil in E. rewrite E in X. destruct X.
Qed.
Lemma step_fedread s f st : federation s -> Inv s st -> exists st', step s (FedRead f) st = Ok st' /\ Inv s st'.
Proof.
  intros F V. cbn [step]. destruct (ph (feds st f)) eqn:PH; try (eexists; split; [reflexivity|assumption]).
  destruct (down (feds st f)) as [|[b a] r] eqn:DN; [eexists; split; [reflexivity|assumption]|].
  destruct (V_down s st V f b a) as (g & r' & q & E1 & E2 & E3 & E4); [rewrite DN; left; reflexivity|].
  assert (QR : in_int32 q).
  { destruct E4 as [->|E4]; [unfold in_int32; lia|]. apply port_int32. apply (V_port s st V g q E4). }
  subst b. rewrite (int32_back _ q QR). cbn [bind]. eexists. split; [reflexivity|].
  pose proof (V_asked s st V f) as X. rewrite PH, DN in X. cbn [is_asked length] in X.
  assert (Q0 : queries (up (feds st f)) = 0%nat) by lia. assert (r = []) by (apply length_zero_iff_nil; lia). subst r.
  set (nph := if q =? -1 then Idle else _).
  assert (NP : (q = -1 /\ nph = Idle) \/ (sport (feds st g) = Some q /\ nph = Connecting a q)).
  { subst nph. destruct (Z.eqb_spec q (-1)) as [e|ne]; [left; split; [assumption|reflexivity]|]. destruct E4 as [E4|E4]; [contradiction|]. right. split; [assumption|].
    destruct (V_port s st V g q E4) as [B _]. destruct (Z.ltb_spec 0 q); [|lia]. destruct (Z.ltb_spec q 65536); [reflexivity|lia]. }
  apply change_one; flds; try reflexivity; try assumption.
  - intros m I. apply (V_up s st V f m I).
  - destruct NP as [[_ ->]|[_ ->]]; cbn [is_asked length]; lia.
  - intros b' a' [].
  - intros a' p E. destruct NP as [[_ NP]|[SG NP]]; [congruence|]. exists g, r'. rewrite NP in E. injection E as <- <-. auto.
  - intros a' p c E. destruct NP as [[_ NP]|[SG NP]]; congruence.
  - destruct NP as [[_ ->]|[_ ->]]; discriminate.
  - apply (V_nodup s st V f).
  - apply (V_peers s st V f).
  - apply (V_outs s st V f).
  - intros h c I. destruct (V_ins s st V h f c I) as (_ & _ & [(a' & p & E)|E]); [congruence|right; assumption].
  - intros a' p c k E. congruence.
Qed.
Lemma step_giveup s f st : federation s -> Inv s st -> exists st', step s (GiveUp f) st = Ok st' /\ Inv s st'.
Proof.
  intros F V. cbn [step]. destruct (ph (feds st f)) eqn:PH; try (eexists; split; [reflexivity|assumption]).
  eexists. split; [reflexivity|]. pose proof (V_asked s st V f) as X. rewrite PH in X. cbn [is_asked] in X.
  destruct (V_conn s st V f _ _ PH) as (g & r & E1 & E2 & E3).
  pose proof (V_nodup s st V f) as ND. pose proof (V_peers s st V f) as PE. rewrite E1 in *.
  apply change_one; flds; try reflexivity; try discriminate; try assumption.
  - intros m I. pose proof (V_up s st V f m I) as Y. destruct m; [exact Y|].
    assert (is_query (MQuery payload) = false) by (apply (queries_none (up (feds st f))); [lia|assumption]). discriminate.
  - intros b' a' I. assert (Z0 : length (down (feds st f)) = 0%nat) by lia. apply length_zero_iff_nil in Z0. rewrite Z0 in I. destruct I.
  - cbn [tl]. apply NoDup_remove_1 in ND. assumption.
  - intros h I. apply PE. rewrite in_app_iff in *. cbn [tl In] in *. tauto.
  - apply (V_outs s st V f).
  - intros h c I. destruct (V_ins s st V h f c I) as (_ & _ & [(a' & p' & E)|E]); [congruence|right; assumption].
  - intros a' p' c k E. congruence.
Qed.
Lemma step_fedack s f st : federation s -> Inv s st -> exists st', step s (FedAck f) st = Ok st' /\ Inv s st'.
Proof.
  intros F V. cbn [step]. destruct (ph (feds st f)) as [| | |a p c|] eqn:PH; try (eexists; split; [reflexivity|assumption]).
  destruct (V_shake s st V f _ _ _ PH) as (g & r & x & E1 & E2 & E3 & E4 & E5). rewrite E1. unfold good_conn in E4. rewrite E4.
  destruct x as [[|]|]; [|destruct E5|eexists; split; [reflexivity|assumption]].
  eexists. split; [reflexivity|]. pose proof (V_asked s st V f) as X. rewrite PH in X. cbn [is_asked] in X.
  pose proof (V_nodup s st V f) as ND. pose proof (V_peers s st V f) as PE. rewrite E1 in *.
  apply change_one; flds; try reflexivity; try discriminate; try assumption.
  - intros m I. pose proof (V_up s st V f m I) as Y. destruct m; [exact Y|].
    assert (is_query (MQuery payload) = false) by (apply (queries_none (up (feds st f))); [lia|assumption]). discriminate.
  - intros b' a' I. assert (Z0 : length (down (feds st f)) = 0%nat) by lia. apply length_zero_iff_nil in Z0. rewrite Z0 in I. destruct I.
  - cbn [map fst app]. apply NoDup_cons_iff. split; [apply NoDup_remove_2 in ND; assumption|apply NoDup_remove_1 in ND; assumption].
  - intros h I. apply PE. cbn [map fst app In] in I. rewrite in_app_iff in *. cbn [In]. tauto.
  - intros h c' [I|I]; [|apply (V_outs s st V f); assumption]. injection I as <- <-. split; [exact E4|assumption].
  - intros h c' I. destruct (V_ins s st V h f c' I) as (G & _ & [(a' & p' & E)|E]); [|right; right; assumption].
    right. left. rewrite PH in E. injection E as <- <- <-. unfold good_conn in G. rewrite E4 in G. congruence.
  - intros a' p' c' k E EK EN. exfalso. rewrite PH in E. injection E as <- <- <-. rewrite E4 in EK. injection EK as <-. discriminate.
Qed.
Lemma step_rtiread s f st : federation s -> Inv s st -> exists st', step s (RtiRead f) st = Ok st' /\ Inv s st'.
Proof.
  intros F V. cbn [step]. destruct (up (feds st f)) as [|[b|b] r] eqn:UP; [eexists; split; [reflexivity|assumption]| |].
  - destruct (V_up s st V f (MAd b)) as (p & SP & ->); [rewrite UP; left; reflexivity|].
    rewrite (int32_back _ p) by (apply port_int32; apply (V_port s st V f p SP)). cbn [bind]. eexists. split; [reflexivity|].
    assert (V' : Inv s (set_fed st f (with_up r (feds st f)))).
    { pose proof (V_asked s st V f) as X. rewrite UP, queries_cons in X. cbn [is_query] in X.
      apply change_one; flds; try reflexivity; try assumption.
      - intros m I. apply (V_up s st V f m). rewrite UP. right. assumption.
      - apply (V_down s st V f).
      - apply (V_conn s st V f).
      - apply (V_shake s st V f).
      - apply (V_exit s st V f).
      - apply (V_nodup s st V f).
      - apply (V_peers s st V f).
      - apply (V_outs s st V f).
      - intros h c I. apply (V_ins s st V h f c I).
      - intros a q c k E _ _. exists a, q. assumption. }
    destruct V'. unfold set_fed in *. cbn [feds table conns] in *. split; cbn [feds table conns]; try assumption.
    intros g. destruct (fupd_cases (table st) f p g) as [[-> ->]|[ne ->]]; [|apply V_table0]. right. rewrite fupd_same. flds. assumption.
  - destruct (V_up s st V f (MQuery b)) as (g & rt & TD & ->); [rewrite UP; left; reflexivity|].
    assert (GN : (g < n s)%nat).
    { apply (F_peers s F f g). apply (V_peers s st V f). rewrite TD, in_app_iff. right. left. reflexivity. }
    pose proof (F_size s F) as NS. rewrite uint16_back by (unfold in_uint16; lia). cbn [bind]. rewrite Nat2Z.id.
    rewrite (proj2 (Nat.ltb_lt _ _)) by assumption. eexists. split; [reflexivity|].
    pose proof (V_asked s st V f) as X. rewrite UP, queries_cons in X. cbn [is_query] in X.
    apply change_one; flds; try reflexivity; try assumption.
    + intros m I. apply (V_up s st V f m). rewrite UP. right. assumption.
    + rewrite app_length. cbn [length]. lia.
    + intros b a. rewrite in_app_iff. intros [I|[I|[]]]; [apply (V_down s st V f b a I)|]. injection I as <- <-.
      exists g, rt, (table st g). split; [assumption|]. split; [reflexivity|]. split; [reflexivity|]. apply (V_table s st V g).
    + apply (V_conn s st V f).
    + apply (V_shake s st V f).
    + apply (V_exit s st V f).
    + apply (V_nodup s st V f).
    + apply (V_peers s st V f).
    + apply (V_outs s st V f).
    + intros h c I. apply (V_ins s st V h f c I).
    + intros a q c k E _ _. exists a, q. assumption.
Qed.

(** ** Connections. *)
Lemma good_app s st c f g x feds' t k : good_conn s st c f g x -> good_conn s (mkNet feds' t (conns st ++ [k])) c f g x.
Proof. unfold good_conn. cbn [conns]. intros E. rewrite nth_error_app1; [assumption|]. apply nth_error_Some. congruence. Qed.
Lemma nth_last {A} (l : list A) x : nth_error (l ++ [x]) (length l) = Some x.
Proof. rewrite nth_error_app2, Nat.sub_diag by lia. reflexivity. Qed.
Lemma nodup_snoc {A} (l : list A) x : NoDup l -> ~ In x l -> NoDup (l ++ [x]).
Proof. intros N I. apply NoDup_app_remove_l || idtac. induction l as [|a l IH]; [constructor; [intros []|constructor]|]. inversion N; subst. cbn [app]. constructor; [|apply IH; [assumption|intros X; apply I; right; assumption]].
  rewrite in_app_iff. intros [X|[X|[]]]; [contradiction|]. apply I. left. symmetry. assumption. Qed.
Lemma step_connect s f st : federation s -> routed s -> Inv s st -> exists st', step s (Connect f) st = Ok st' /\ Inv s st'.
Proof.
  intros F RT V. cbn [step]. destruct (ph (feds st f)) as [| |a p| |] eqn:PH; try (eexists; split; [reflexivity|assumption]).
  destruct (V_conn s st V f a p PH) as (g & r & TD & -> & SG).
  assert (PG : In g (peers s f)) by (apply (V_peers s st V f); rewrite TD, in_app_iff; right; left; reflexivity).
  rewrite (RT f g PG).
  destruct (listener s st (host s g) p) as [g'|] eqn:L; [|eexists; split; [reflexivity|assumption]].
  destruct (listener_some _ _ _ _ _ L) as (_ & HG & SG').
  assert (g' = g) by (apply (V_uniq s st V g' g p); assumption). subst g'.
  cbn [set_fed feds table conns]. eexists. split; [reflexivity|].
  set (c := length (conns st)). set (x := with_ph (Shaking (addr s g) p c) (feds st f)).
  set (F1 := fupd (feds st) f x). set (F2 := fupd F1 g _). set (K := mkConn (Some f) g (hello s f) None).
  assert (E1 : forall h, sport (F2 h) = sport (feds st h) /\ up (F2 h) = up (feds st h) /\ down (F2 h) = down (feds st h) /\ todo (F2 h) = todo (feds st h) /\
     outs (F2 h) = outs (feds st h) /\ ins (F2 h) = ins (feds st h) /\ (h <> f -> ph (F2 h) = ph (feds st h)) /\ (h <> g -> backlog (F2 h) = backlog (feds st h))).
  { intros h. subst F2 F1 x. destruct (fupd_cases (fupd (feds st) f (with_ph (Shaking (addr s g) p c) (feds st f))) g
      (with_backlog (backlog (fupd (feds st) f (with_ph (Shaking (addr s g) p c) (feds st f)) g) ++ [c]) (fupd (feds st) f (with_ph (Shaking (addr s g) p c) (feds st f)) g)) h) as [[-> ->]|[ne ->]].
    - who g f; flds; repeat split; try reflexivity; try contradiction.
    - who h f; flds; repeat split; try reflexivity; try contradiction. }
  assert (E2 : ph (F2 f) = Shaking (addr s g) p c).
  { subst F2 F1 x. unfold fupd. destruct (Nat.eqb_spec f g) as [e|ne]; [rewrite <- e, Nat.eqb_refl|rewrite Nat.eqb_refl]; reflexivity. }
  assert (E3 : backlog (F2 g) = backlog (feds st g) ++ [c]).
  { subst F2. rewrite fupd_same. flds. f_equal. subst F1 x. who g f; reflexivity. }
  clearbody F2. clear F1 x.
  assert (OLD : forall d k, nth_error (conns st) d = Some k -> nth_error (conns st ++ [K]) d = Some k /\ (d < c)%nat).
  { intros d k E. assert (d < length (conns st))%nat by (apply nth_error_Some; congruence). split; [rewrite nth_error_app1; assumption|assumption]. }
  assert (E_sport : forall h, sport (F2 h) = sport (feds st h)) by apply E1. assert (E_up : forall h, up (F2 h) = up (feds st h)) by apply E1.
  assert (E_down : forall h, down (F2 h) = down (feds st h)) by apply E1. assert (E_todo : forall h, todo (F2 h) = todo (feds st h)) by apply E1.
  assert (E_outs : forall h, outs (F2 h) = outs (feds st h)) by apply E1. assert (E_ins : forall h, ins (F2 h) = ins (feds st h)) by apply E1.
  assert (E_ph : forall h, h <> f -> ph (F2 h) = ph (feds st h)) by apply E1. assert (E_bk : forall h, h <> g -> backlog (F2 h) = backlog (feds st h)) by apply E1.
  clear E1. destruct V. split; cbn [feds table conns].
  - intros h. rewrite E_sport. apply V_table0.
  - intros h. rewrite E_sport. apply V_port0.
  - intros h h'. rewrite !E_sport. apply V_uniq0.
  - intros h m. rewrite E_sport, E_up, E_todo. apply V_up0.
  - intros h. rewrite E_up, E_down. destruct (Nat.eq_dec h f) as [->|ne]; [|rewrite E_ph by assumption; apply V_asked0].
    rewrite E2. specialize (V_asked0 f). rewrite PH in V_asked0. exact V_asked0.
  - intros h b z. rewrite E_down, E_todo. intros I. destruct (V_down0 h b z I) as (g0 & r0 & q & X1 & X2 & X3 & X4). exists g0, r0, q. rewrite E_sport. auto.
  - intros h b z I. destruct (Nat.eq_dec h f) as [->|ne]; [congruence|]. rewrite E_ph in I by assumption. rewrite E_todo.
    destruct (V_conn0 h b z I) as (g0 & r0 & X1 & X2 & X3). exists g0, r0. rewrite E_sport. auto.
  - intros h b z d I. rewrite E_todo. destruct (Nat.eq_dec h f) as [->|ne].
    + rewrite E2 in I. injection I as <- <- <-. exists g, r, None. rewrite E_sport. split; [assumption|]. split; [reflexivity|]. split; [assumption|].
      split; [unfold good_conn; cbn [conns]; apply nth_last|exact Logic.I].
    + rewrite E_ph in I by assumption. destruct (V_shake0 h b z d I) as (g0 & r0 & w & X1 & X2 & X3 & X4 & X5). exists g0, r0, w.
      rewrite E_sport, E_ins. repeat split; try assumption. apply good_app. exact X4.
  - intros h. destruct (Nat.eq_dec h f) as [->|ne]; [rewrite E2; discriminate|rewrite E_ph by assumption; apply V_exit0].
  - intros h. rewrite E_outs, E_todo. apply V_nodup0.
  - intros h g0. rewrite E_outs, E_todo. apply V_peers0.
  - intros h g0 d. rewrite E_outs, E_ins. intros I. destruct (V_outs0 h g0 d I) as [X1 X2]. split; [apply good_app; exact X1|assumption].
  - intros h f0 d. rewrite E_ins. intros I. destruct (V_ins0 h f0 d I) as (X1 & X2 & X3). split; [apply good_app; exact X1|]. split; [assumption|].
    rewrite E_outs. destruct X3 as [(u & v & X3)|X3]; [|right; assumption].
    destruct (Nat.eq_dec f0 f) as [->|ne]; [congruence|]. left. exists u, v. rewrite E_ph by assumption. assumption.
  - intros h. rewrite E_ins. apply V_once0.
  - assert (OLDB : forall h d, In d (backlog (feds st h)) -> exists k : conn, nth_error (conns st ++ [K]) d = Some k /\ server k = h /\ answered k = None /\
        match client k with Some f0 => sent k = hello s f0 /\ (exists a p0, ph (F2 f0) = Shaking a p0 d) | None => foreign s (sent k) end).
    { intros h d I. destruct (V_backlog0 h d I) as (k & X1 & X2 & X3 & X4). exists k. split; [apply (OLD d k X1)|]. split; [assumption|]. split; [assumption|].
      destruct (client k) as [f0|]; [|assumption]. destruct X4 as [X4 (u & v & X5)]. split; [assumption|].
      destruct (Nat.eq_dec f0 f) as [->|ne]; [congruence|]. exists u, v. rewrite E_ph by assumption. assumption. }
    intros h d I. destruct (Nat.eq_dec h g) as [->|ne]; [|rewrite E_bk in I by assumption; apply OLDB; assumption].
    rewrite E3, in_app_iff in I. destruct I as [I|[<-|[]]]; [apply OLDB; assumption|].
    exists K. split; [apply nth_last|]. repeat split. exists (addr s g), p. assumption.
  - intros h. destruct (Nat.eq_dec h g) as [->|ne]; [|rewrite E_bk by assumption; apply V_wait0].
    rewrite E3. apply nodup_snoc; [apply V_wait0|]. intros I. destruct (V_backlog0 g c I) as (k & X1 & _). apply OLD in X1. lia.
Qed.
Lemma step_stranger s g bytes st : federation s -> foreign s bytes -> Inv s st -> exists st', step s (Stranger g bytes) st = Ok st' /\ Inv s st'.
Proof.
  intros F FO V. cbn [step]. destruct (sport (feds st g)) as [p|] eqn:SP; [|eexists; split; [reflexivity|assumption]].
  eexists. split; [reflexivity|]. set (c := length (conns st)). set (K := mkConn None g bytes None).
  set (F2 := fupd (feds st) g _).
  assert (E1 : forall h, sport (F2 h) = sport (feds st h) /\ up (F2 h) = up (feds st h) /\ down (F2 h) = down (feds st h) /\ todo (F2 h) = todo (feds st h) /\
     outs (F2 h) = outs (feds st h) /\ ins (F2 h) = ins (feds st h) /\ ph (F2 h) = ph (feds st h) /\ (h <> g -> backlog (F2 h) = backlog (feds st h))).
  { intros h. subst F2. who h g; flds; repeat split; try reflexivity; contradiction. }
  assert (E3 : backlog (F2 g) = backlog (feds st g) ++ [c]) by (subst F2; rewrite fupd_same; reflexivity).
  clearbody F2.
  assert (OLD : forall d k, nth_error (conns st) d = Some k -> nth_error (conns st ++ [K]) d = Some k /\ (d < c)%nat).
  { intros d k E. assert (d < length (conns st))%nat by (apply nth_error_Some; congruence). split; [rewrite nth_error_app1; assumption|assumption]. }
  assert (E_sport : forall h, sport (F2 h) = sport (feds st h)) by apply E1. assert (E_up : forall h, up (F2 h) = up (feds st h)) by apply E1.
  assert (E_down : forall h, down (F2 h) = down (feds st h)) by apply E1. assert (E_todo : forall h, todo (F2 h) = todo (feds st h)) by apply E1.
  assert (E_outs : forall h, outs (F2 h) = outs (feds st h)) by apply E1. assert (E_ins : forall h, ins (F2 h) = ins (feds st h)) by apply E1.
  assert (E_ph : forall h, ph (F2 h) = ph (feds st h)) by apply E1. assert (E_bk : forall h, h <> g -> backlog (F2 h) = backlog (feds st h)) by apply E1.
  clear E1. destruct V. split; cbn [feds table conns].
  - intros h. rewrite E_sport. apply V_table0.
  - intros h. rewrite E_sport. apply V_port0.
  - intros h h'. rewrite !E_sport. apply V_uniq0.
  - intros h m. rewrite E_sport, E_up, E_todo. apply V_up0.
  - intros h. rewrite E_up, E_down, E_ph. apply V_asked0.
  - intros h b z. rewrite E_down, E_todo. intros I. destruct (V_down0 h b z I) as (g0 & r0 & q & X1 & X2 & X3 & X4). exists g0, r0, q. rewrite E_sport. auto.
  - intros h b z I. rewrite E_ph in I. rewrite E_todo.
    destruct (V_conn0 h b z I) as (g0 & r0 & X1 & X2 & X3). exists g0, r0. rewrite E_sport. auto.
  - intros h b z d I. rewrite E_todo. rewrite E_ph in I. destruct (V_shake0 h b z d I) as (g0 & r0 & w & X1 & X2 & X3 & X4 & X5). exists g0, r0, w.
    rewrite E_sport, E_ins. repeat split; try assumption. apply good_app. exact X4.
  - intros h. rewrite E_ph. apply V_exit0.
  - intros h. rewrite E_outs, E_todo. apply V_nodup0.
  - intros h g0. rewrite E_outs, E_todo. apply V_peers0.
  - intros h g0 d. rewrite E_outs, E_ins. intros I. destruct (V_outs0 h g0 d I) as [X1 X2]. split; [apply good_app; exact X1|assumption].
  - intros h f0 d. rewrite E_ins. intros I. destruct (V_ins0 h f0 d I) as (X1 & X2 & X3). split; [apply good_app; exact X1|]. split; [assumption|].
    rewrite E_outs, E_ph. assumption.
  - intros h. rewrite E_ins. apply V_once0.
  - assert (OLDB : forall h d, In d (backlog (feds st h)) -> exists k : conn, nth_error (conns st ++ [K]) d = Some k /\ server k = h /\ answered k = None /\
        match client k with Some f0 => sent k = hello s f0 /\ (exists a p0, ph (F2 f0) = Shaking a p0 d) | None => foreign s (sent k) end).
    { intros h d I. destruct (V_backlog0 h d I) as (k & X1 & X2 & X3 & X4). exists k. split; [apply (OLD d k X1)|]. split; [assumption|]. split; [assumption|].
      destruct (client k) as [f0|]; [|assumption]. rewrite E_ph. assumption. }
    intros h d I. destruct (Nat.eq_dec h g) as [->|ne]; [|rewrite E_bk in I by assumption; apply OLDB; assumption].
    rewrite E3, in_app_iff in I. destruct I as [I|[<-|[]]]; [apply OLDB; assumption|].
    exists K. split; [apply nth_last|]. repeat split. assumption.
  - intros h. destruct (Nat.eq_dec h g) as [->|ne]; [|rewrite E_bk by assumption; apply V_wait0].
    rewrite E3. apply nodup_snoc; [apply V_wait0|]. intros I. destruct (V_backlog0 g c I) as (k & X1 & _). apply OLD in X1. lia.
Qed.

Lemma set_nth_same {A} (x : A) : forall l i k, nth_error l i = Some k -> nth_error (set_nth i x l) i = Some x.
Proof. induction l as [|a l IH]; intros [|i] k E; cbn [nth_error set_nth] in *; try discriminate; [reflexivity|]. apply (IH i k E). Qed.
Lemma set_nth_other {A} (x : A) : forall l i j, j <> i -> nth_error (set_nth i x l) j = nth_error l j.
Proof.
  induction l as [|a l IH]; intros [|i] [|j] N; cbn [nth_error set_nth]; try reflexivity; try contradiction. apply IH. congruence.
Qed.
Lemma fst_in (l : list (nat * nat)) f : In f (map fst l) -> exists c, In (f, c) l.
Proof. intros I. apply in_map_iff in I. destruct I as ([a c] & E & I). cbn [fst] in E. subst a. exists c. assumption. Qed.
Lemma in_fst (l : list (nat * nat)) f c : In (f, c) l -> In f (map fst l).
Proof. intros I. apply in_map_iff. exists (f, c). split; [reflexivity|assumption]. Qed.
Lemma step_accept s g st : federation s -> Inv s st -> exists st', step s (Accept g) st = Ok st' /\ Inv s st'.
Proof.
  intros F V. cbn [step]. destruct (expected s g <=? length (ins (feds st g)))%nat; [eexists; split; [reflexivity|assumption]|].
  destruct (backlog (feds st g)) as [|c r] eqn:BL; [eexists; split; [reflexivity|assumption]|].
  destruct (V_backlog s st V g c) as (k & EK & SK & AK & CK); [rewrite BL; left; reflexivity|]. rewrite EK.
  pose proof (V_wait s st V g) as NW. rewrite BL in NW. inversion NW as [|? ? NC NR]; subst.
  assert (EB : forall F2 : nat -> fed, (forall h, h <> server k -> backlog (F2 h) = backlog (feds st h)) -> backlog (F2 (server k)) = r ->
     forall h d, In d (backlog (F2 h)) -> In d (backlog (feds st h)) /\ d <> c).
  { intros F2 A B h d I. destruct (Nat.eq_dec h (server k)) as [->|ne].
    - rewrite B in I. split; [rewrite BL; right; assumption|]. intros ->. contradiction.
    - rewrite (A h ne) in I. split; [assumption|]. intros ->. destruct (V_backlog s st V h c I) as (k' & X1 & X2 & _). congruence. }
  destruct (client k) as [f|] eqn:CL.
  - destruct CK as [SE (a & p & PH)]. destruct (V_shake s st V f a p c PH) as (g' & r' & x & TD & -> & SG & GC & IX).
    unfold good_conn in GC. rewrite EK in GC. injection GC as GC. rewrite GC in *. cbn [client server sent answered] in *. subst x.
    assert (PG : In g' (peers s f)) by (apply (V_peers s st V f); rewrite TD, in_app_iff; right; left; reflexivity).
    rewrite hello_accepted by (try assumption; apply (F_peers s F f g' PG)). cbn [bind].
    eexists. split; [reflexivity|]. rename g' into g. set (K := mkConn (Some f) g (hello s f) (Some true)).
    set (F2 := fupd (feds st) g _).
    assert (E1 : forall h, sport (F2 h) = sport (feds st h) /\ up (F2 h) = up (feds st h) /\ down (F2 h) = down (feds st h) /\ todo (F2 h) = todo (feds st h) /\
       outs (F2 h) = outs (feds st h) /\ (h <> g -> ins (F2 h) = ins (feds st h)) /\ ph (F2 h) = ph (feds st h) /\ (h <> g -> backlog (F2 h) = backlog (feds st h))).
    { intros h. subst F2. who h g; flds; repeat split; try reflexivity; contradiction. }
    assert (E3 : backlog (F2 g) = r) by (subst F2; rewrite fupd_same; reflexivity).
    assert (E4 : ins (F2 g) = (f, c) :: ins (feds st g)) by (subst F2; rewrite fupd_same; reflexivity).
    clearbody F2.
    assert (E_sport : forall h, sport (F2 h) = sport (feds st h)) by apply E1. assert (E_up : forall h, up (F2 h) = up (feds st h)) by apply E1.
    assert (E_down : forall h, down (F2 h) = down (feds st h)) by apply E1. assert (E_todo : forall h, todo (F2 h) = todo (feds st h)) by apply E1.
    assert (E_outs : forall h, outs (F2 h) = outs (feds st h)) by apply E1. assert (E_ph : forall h, ph (F2 h) = ph (feds st h)) by apply E1.
    assert (E_ins : forall h z, In z (ins (feds st h)) -> In z (ins (F2 h))).
    { intros h z I. destruct (Nat.eq_dec h g) as [->|ne]; [rewrite E4; right; assumption|]. destruct (E1 h) as (_ & _ & _ & _ & _ & -> & _); assumption. }
    assert (E_bk : forall h d, In d (backlog (F2 h)) -> In d (backlog (feds st h)) /\ d <> c).
    { apply EB; [|assumption]. intros h ne. apply (E1 h). assumption. }
    assert (GOOD : forall d f0 g0 x, good_conn s st d f0 g0 x -> x <> None -> good_conn s (mkNet F2 (table st) (set_nth c K (conns st))) d f0 g0 x).
    { intros d f0 g0 x G NX. unfold good_conn in *. cbn [conns]. rewrite set_nth_other; [assumption|]. intros ->. rewrite EK in G. injection G as _ _ _ G. congruence. }
    assert (FRESH : ~ In f (map fst (ins (feds st g)))).
    { intros I. apply fst_in in I. destruct I as [d I]. destruct (V_ins s st V g f d I) as (G & _ & [(u & v & X)|X]).
      - rewrite PH in X. injection X as _ _ <-. unfold good_conn in G. congruence.
      - apply in_fst in X. pose proof (V_nodup s st V f) as ND. rewrite TD in ND. apply NoDup_remove_2 in ND. apply ND. rewrite in_app_iff. left. assumption. }
    destruct V. split; cbn [feds table conns].
    + intros h. rewrite E_sport. apply V_table0.
    + intros h. rewrite E_sport. apply V_port0.
    + intros h h'. rewrite !E_sport. apply V_uniq0.
    + intros h m. rewrite E_sport, E_up, E_todo. apply V_up0.
    + intros h. rewrite E_up, E_down, E_ph. apply V_asked0.
    + intros h b z. rewrite E_down, E_todo. intros I. destruct (V_down0 h b z I) as (g0 & r0 & q & X1 & X2 & X3 & X4). exists g0, r0, q. rewrite E_sport. auto.
    + intros h b z I. rewrite E_ph in I. rewrite E_todo.
      destruct (V_conn0 h b z I) as (g0 & r0 & X1 & X2 & X3). exists g0, r0. rewrite E_sport. auto.
    + intros h b z d I. rewrite E_todo. rewrite E_ph in I. destruct (V_shake0 h b z d I) as (g0 & r0 & w & X1 & X2 & X3 & X4 & X5).
      destruct (Nat.eq_dec d c) as [->|ne].
      * unfold good_conn in X4. rewrite EK in X4. injection X4 as Xf Xg _ _. subst h g0. exists g, r0, (Some true).
        rewrite E_sport. split; [assumption|]. split; [assumption|]. split; [assumption|]. split; [|rewrite E4; left; reflexivity].
        unfold good_conn. cbn [conns]. apply (set_nth_same _ _ _ _ EK).
      * exists g0, r0, w. rewrite E_sport. split; [assumption|]. split; [assumption|]. split; [assumption|].
        split; [unfold good_conn in *; cbn [conns]; rewrite set_nth_other by assumption; assumption|].
        destruct w as [[|]|]; try assumption. apply E_ins. assumption.
    + intros h. rewrite E_ph. apply V_exit0.
    + intros h. rewrite E_outs, E_todo. apply V_nodup0.
    + intros h g0. rewrite E_outs, E_todo. apply V_peers0.
    + intros h g0 d. rewrite E_outs. intros I. destruct (V_outs0 h g0 d I) as [X1 X2]. split; [apply GOOD; [exact X1|discriminate]|apply E_ins; assumption].
    + intros h f0 d I. rewrite E_outs, E_ph.
      assert (I' : (h = g /\ f0 = f /\ d = c) \/ In (f0, d) (ins (feds st h))).
      { destruct (Nat.eq_dec h g) as [->|ne]; [|right; destruct (E1 h) as (_ & _ & _ & _ & _ & X & _); rewrite X in I by assumption; assumption].
        rewrite E4 in I. destruct I as [I|I]; [left; repeat split; congruence|right; assumption]. }
      destruct I' as [(-> & -> & ->)|I'].
      * split; [unfold good_conn; cbn [conns]; apply (set_nth_same _ _ _ _ EK)|]. split; [assumption|]. left. exists (addr s g), p. assumption.
      * destruct (V_ins0 h f0 d I') as (X1 & X2 & X3). split; [apply GOOD; [exact X1|discriminate]|]. split; assumption.
    + intros h. destruct (Nat.eq_dec h g) as [->|ne]; [rewrite E4; cbn [map fst]; constructor; [assumption|apply V_once0]|].
      destruct (E1 h) as (_ & _ & _ & _ & _ & -> & _); [apply V_once0|assumption].
    + intros h d I. apply E_bk in I. destruct I as [I ne]. destruct (V_backlog0 h d I) as (k' & X1 & X2 & X3 & X4). exists k'.
      split; [rewrite set_nth_other by assumption; assumption|]. split; [assumption|]. split; [assumption|].
      destruct (client k') as [f0|]; [|assumption]. rewrite E_ph. assumption.
    + intros h. destruct (Nat.eq_dec h g) as [->|ne]; [rewrite E3; assumption|]. destruct (E1 h) as (_ & _ & _ & _ & _ & _ & _ & ->); [apply V_wait0|assumption].
  - destruct (foreign_refused s (server k) (sent k) CK) as (a & EA & NA). rewrite EA. cbn [bind].
    set (K := mkConn None (server k) (sent k) (Some false)). set (F2 := fupd (feds st) (server k) (with_backlog r (feds st (server k)))).
    exists (mkNet F2 (table st) (set_nth c K (conns st))).
    split; [destruct a; try reflexivity; exfalso; eapply NA; reflexivity|].
    assert (E1 : forall h, sport (F2 h) = sport (feds st h) /\ up (F2 h) = up (feds st h) /\ down (F2 h) = down (feds st h) /\ todo (F2 h) = todo (feds st h) /\
       outs (F2 h) = outs (feds st h) /\ ins (F2 h) = ins (feds st h) /\ ph (F2 h) = ph (feds st h) /\ (h <> server k -> backlog (F2 h) = backlog (feds st h))).
    { intros h. subst F2. who h (server k); flds; repeat split; try reflexivity; contradiction. }
    assert (E3 : backlog (F2 (server k)) = r) by (subst F2; rewrite fupd_same; reflexivity).
    clearbody F2.
    assert (E_sport : forall h, sport (F2 h) = sport (feds st h)) by apply E1. assert (E_up : forall h, up (F2 h) = up (feds st h)) by apply E1.
    assert (E_down : forall h, down (F2 h) = down (feds st h)) by apply E1. assert (E_todo : forall h, todo (F2 h) = todo (feds st h)) by apply E1.
    assert (E_outs : forall h, outs (F2 h) = outs (feds st h)) by apply E1. assert (E_ph : forall h, ph (F2 h) = ph (feds st h)) by apply E1.
    assert (E_ins : forall h, ins (F2 h) = ins (feds st h)) by apply E1.
    assert (E_bk : forall h d, In d (backlog (F2 h)) -> In d (backlog (feds st h)) /\ d <> c).
    { apply EB; [|assumption]. intros h ne. apply (E1 h). assumption. }
    assert (GOOD : forall d f0 g0 x, good_conn s st d f0 g0 x -> good_conn s (mkNet F2 (table st) (set_nth c K (conns st))) d f0 g0 x).
    { intros d f0 g0 x G. unfold good_conn in *. cbn [conns]. rewrite set_nth_other; [assumption|]. intros ->. rewrite EK in G. injection G as G. rewrite G in CL. discriminate. }
    destruct V. split; cbn [feds table conns].
    + intros h. rewrite E_sport. apply V_table0.
    + intros h. rewrite E_sport. apply V_port0.
    + intros h h'. rewrite !E_sport. apply V_uniq0.
    + intros h m. rewrite E_sport, E_up, E_todo. apply V_up0.
    + intros h. rewrite E_up, E_down, E_ph. apply V_asked0.
    + intros h b z. rewrite E_down, E_todo. intros I. destruct (V_down0 h b z I) as (g0 & r0 & q & X1 & X2 & X3 & X4). exists g0, r0, q. rewrite E_sport. auto.
    + intros h b z I. rewrite E_ph in I. rewrite E_todo.
      destruct (V_conn0 h b z I) as (g0 & r0 & X1 & X2 & X3). exists g0, r0. rewrite E_sport. auto.
    + intros h b z d I. rewrite E_todo. rewrite E_ph in I. destruct (V_shake0 h b z d I) as (g0 & r0 & w & X1 & X2 & X3 & X4 & X5).
      exists g0, r0, w. rewrite E_sport, E_ins. repeat split; try assumption. apply GOOD. exact X4.
    + intros h. rewrite E_ph. apply V_exit0.
    + intros h. rewrite E_outs, E_todo. apply V_nodup0.
    + intros h g0. rewrite E_outs, E_todo. apply V_peers0.
    + intros h g0 d. rewrite E_outs, E_ins. intros I. destruct (V_outs0 h g0 d I) as [X1 X2]. split; [apply GOOD; exact X1|assumption].
    + intros h f0 d. rewrite E_ins, E_outs, E_ph. intros I. destruct (V_ins0 h f0 d I) as (X1 & X2 & X3). split; [apply GOOD; exact X1|]. split; assumption.
    + intros h. rewrite E_ins. apply V_once0.
    + intros h d I. apply E_bk in I. destruct I as [I ne]. destruct (V_backlog0 h d I) as (k' & X1 & X2 & X3 & X4). exists k'.
      split; [rewrite set_nth_other by assumption; assumption|]. split; [assumption|]. split; [assumption|].
      destruct (client k') as [f0|]; [|assumption]. rewrite E_ph. assumption.
    + intros h. destruct (Nat.eq_dec h (server k)) as [->|ne]; [rewrite E3; assumption|]. destruct (E1 h) as (_ & _ & _ & _ & _ & _ & _ & ->); [apply V_wait0|assumption].
Qed.

Lemma step_inv s o st : federation s -> routed s -> harmless s o -> Inv s st -> exists st', step s o st = Ok st' /\ Inv s st'.
Proof.
  intros F R H V. destruct o.
  - apply step_serve; assumption.
  - apply step_query; assumption.
  - apply step_rtiread; assumption.
  - apply step_fedread; assumption.
  - apply step_connect; assumption.
  - apply step_accept; assumption.
  - apply step_fedack; assumption.
  - apply step_giveup; assumption.
  - apply step_stranger; assumption.
Qed.
Lemma run_inv s : federation s -> routed s -> forall os st, Forall (harmless s) os -> Inv s st -> exists st', run s os st = Ok st' /\ Inv s st'.
Proof.
  intros F R. induction os as [|o os IH]; intros st H V; [exists st; split; [reflexivity|assumption]|].
  inversion H; subst. destruct (step_inv s o st F R) as (st1 & E & V1); try assumption. cbn [run]. rewrite E. cbn [bind]. apply IH; assumption.
Qed.

(** ** The arrays. *)
Lemma lookup_in f l c : lookup f l = Some c -> In (f, c) l.
Proof.
  unfold lookup. destruct (find _ l) as [[a b]|] eqn:E; [|discriminate]. cbn [option_map snd]. intros X. injection X as <-.
  apply find_some in E. destruct E as [I B]. cbn [fst] in B. apply Nat.eqb_eq in B. subst a. assumption.
Qed.
Lemma in_lookup f l c : NoDup (map fst l) -> In (f, c) l -> lookup f l = Some c.
Proof.
  unfold lookup. induction l as [|[a b] l IH]; intros N I; [destruct I|]. cbn [find fst]. cbn [map fst] in N. inversion N; subst.
  destruct (Nat.eqb_spec a f) as [e|ne].
  - subst a. destruct I as [I|I]; [injection I as <-; reflexivity|]. exfalso. apply H1. apply (in_fst l f c I).
  - apply IH; [assumption|]. destruct I as [I|I]; [congruence|assumption].
Qed.
Lemma has_lookup f l : In f (map fst l) -> exists c, lookup f l = Some c.
Proof.
  unfold lookup. intros I. apply fst_in in I. destruct I as [c I]. destruct (find _ l) as [[a b]|] eqn:E; [exists b; reflexivity|].
  exfalso. pose proof (find_none _ _ E _ I) as X. cbn [fst] in X. rewrite Nat.eqb_refl in X. discriminate.
Qed.
Lemma links s st f g c : Inv s st -> outbound st f g = Some c ->
  inbound st g f = Some c /\ exists k, nth_error (conns st) c = Some k /\ client k = Some f /\ server k = g /\ answered k = Some true.
Proof.
  intros V E. apply lookup_in in E. destruct (V_outs s st V f g c E) as [G I]. split; [apply in_lookup; [apply (V_once s st V g)|assumption]|].
  eexists. split; [exact G|]. repeat split.
Qed.
Lemma inbound_real s st f g c : Inv s st -> inbound st g f = Some c -> In g (peers s f) /\ exists k, nth_error (conns st) c = Some k /\ client k = Some f /\ server k = g.
Proof.
  intros V E. apply lookup_in in E. destruct (V_ins s st V g f c E) as (G & P & _). split; [assumption|]. eexists. split; [exact G|]. split; reflexivity.
Qed.

(** ** With patience, nothing is left out. *)
Definition kept (s : static) (st : net) : Prop := forall f g, In g (peers s f) -> In g (map fst (outs (feds st f)) ++ todo (feds st f)).
Lemma kept_step s o st st' : patient o -> step s o st = Ok st' -> kept s st -> kept s st'.
Proof.
  intros P E K f g I. specialize (K f g I).
  assert (SAME : forall i x T C, outs x = outs (feds st i) -> todo x = todo (feds st i) -> st' = mkNet (fupd (feds st) i x) T C ->
      In g (map fst (outs (feds st' f)) ++ todo (feds st' f))).
  { intros i x T C E1 E2 ->. cbn [feds]. who f i; [rewrite E1, E2|]; assumption. }
  assert (ID : Ok st = Ok st' -> In g (map fst (outs (feds st' f)) ++ todo (feds st' f))) by (intros X; injection X as <-; assumption).
  destruct o as [f0 p|f0|f0|f0|f0|g0|f0|f0|g0 bytes]; cbn [step patient] in *; try contradiction.
  - destruct (sport (feds st f0)); [auto|]. destruct (ph (feds st f0)); auto. destruct (_ && _); [|auto]. injection E as E. symmetry in E. eapply SAME; [| |exact E]; reflexivity.
  - destruct (ph (feds st f0)); auto. destruct (todo (feds st f0)) eqn:TD; auto. injection E as E. symmetry in E. eapply SAME; [| |exact E]; flds; congruence.
  - destruct (up (feds st f0)) as [|[b|b] r]; [auto| |].
    + destruct (extract_int32 _ _ _); [|discriminate]. cbn [bind] in E. injection E as E. symmetry in E. eapply SAME; [| |exact E]; reflexivity.
    + destruct (extract_uint16 _ _ _); [|discriminate]. cbn [bind] in E. destruct (_ <? _)%nat; [|discriminate]. injection E as E. symmetry in E. eapply SAME; [| |exact E]; reflexivity.
  - destruct (ph (feds st f0)); auto. destruct (down (feds st f0)) as [|[b a] r]; auto.
    destruct (extract_int32 _ _ _); [|discriminate]. cbn [bind] in E. injection E as E. symmetry in E. eapply SAME; [| |exact E]; reflexivity.
  - destruct (ph (feds st f0)); auto. destruct (reach _ _ _); auto. destruct (listener _ _ _ _) as [g1|]; auto. injection E as <-. cbn [feds set_fed].
    who f g1; flds; who f f0 || who g1 f0; flds; assumption.
  - destruct (_ <=? _)%nat; [auto|]. destruct (backlog (feds st g0)); [auto|]. destruct (nth_error _ _); [|auto]. destruct (accept_check _ _ _) as [[| |]|]; cbn [bind] in E; try discriminate;
      injection E as E; symmetry in E; (eapply SAME; [| |exact E]; reflexivity).
  - destruct (ph (feds st f0)); auto. destruct (todo (feds st f0)) as [|h r] eqn:TD; auto. destruct (nth_error _ _) as [[cl sv sn [[|]|]]|]; auto.
    + injection E as <-. unfold set_fed. cbn [feds]. who f f0; flds; [|assumption]. rewrite TD in K. rewrite in_app_iff in *. cbn [map fst In] in *. tauto.
    + injection E as E. symmetry in E. eapply SAME; [| |exact E]; flds; congruence.
  - destruct (sport (feds st g0)); [|auto]. injection E as E. symmetry in E. eapply SAME; [| |exact E]; reflexivity.
Qed.
Lemma kept_run s : forall os st st', Forall patient os -> run s os st = Ok st' -> kept s st -> kept s st'.
Proof.
  induction os as [|o os IH]; intros st st' P E K; cbn [run] in E; [injection E as <-; assumption|]. inversion P; subst.
  destruct (step s o st) as [st1|] eqn:E1; [|discriminate]. cbn [bind] in E. apply (IH st1 st'); try assumption. apply (kept_step s o st st1); assumption.
Qed.
Lemma kept_start s : kept s (start s).
Proof. intros f g I. exact I. Qed.

(** ** The server. *)
Lemma connecting_in s g f : federation s -> (In f (connecting s g) <-> In g (peers s f)).
Proof.
  intros F. unfold connecting. rewrite filter_In, in_seq, existsb_exists. split.
  - intros (_ & x & I & E). apply Nat.eqb_eq in E. subst x. assumption.
  - intros I. split; [pose proof (proj1 (F_peers s F f g I)); lia|]. exists g. split; [assumption|apply Nat.eqb_refl].
Qed.
Lemma server_full s st g : federation s -> Inv s st -> (length (connecting s g) <= length (ins (feds st g)))%nat ->
  forall f, In g (peers s f) -> exists c, inbound st g f = Some c.
Proof.
  intros F V L f I. apply has_lookup. assert (INC : incl (map fst (ins (feds st g))) (connecting s g)).
  { intros x X. apply fst_in in X. destruct X as [c X]. apply connecting_in; [assumption|]. apply (V_ins s st V g x c X). }
  apply (NoDup_length_incl (V_once s st V g)) in INC; [|rewrite map_length; assumption]. apply INC. apply connecting_in; assumption.
Qed.
Lemma server_bounded s st g : federation s -> Inv s st -> (length (ins (feds st g)) <= length (connecting s g))%nat.
Proof.
  intros F V. rewrite <- (map_length fst). apply NoDup_incl_length; [apply (V_once s st V g)|]. intros x X. apply fst_in in X. destruct X as [c X].
  apply connecting_in; [assumption|]. apply (V_ins s st V g x c X).
Qed.

(** ** The loops. *)
Lemma connect_bounded t0 gap : 0 < gap -> forall l created t,
  Forall (fun c => c_connects c = false) l ->
  (forall i c, nth_error l i = Some c -> t + Z.of_nat (S i) * gap <= c_now c) ->
  match connect_loop t0 created l with
  | StillConnecting _ => t + Z.of_nat (length l) * gap <= t0 + CONNECT_TIMEOUT \/ l = []
  | Stored _ true _ | ExitSocket => False
  | _ => True
  end.
Proof.
  intros G. induction l as [|c l IH]; intros created t C N; cbn [connect_loop]; [right; reflexivity|]. inversion C; subst.
  destruct (c_terminated c); [destruct created; exact Logic.I|]. rewrite H1. destruct (Z.ltb_spec (t0 + CONNECT_TIMEOUT) (c_now c)) as [Y|Y]; [exact Logic.I|].
  destruct (c_rti_failed c); [exact Logic.I|].
  specialize (IH (S created) (t + gap) H2).
  assert (N' : forall i x, nth_error l i = Some x -> t + gap + Z.of_nat (S i) * gap <= c_now x).
  { intros i x E. specialize (N (S i) x E). lia. }
  specialize (IH N'). destruct (connect_loop t0 (S created) l) as [y1 y5 y2|y3| |y4]; try destruct y5; try assumption; try exact Logic.I.
  left. pose proof (N 0%nat c eq_refl) as N0. destruct IH as [IH|IH]; [cbn [length]; lia|subst l; cbn [length]; lia].
Qed.
Lemma ask_bounded b t0 gap : 0 < gap -> forall l t,
  Forall (fun q => q_port q = -1) l ->
  (forall i q, nth_error l i = Some q -> t + Z.of_nat (S i) * gap <= q_now q) ->
  ask b t0 l = StillAsking -> t + Z.of_nat (length l) * gap <= t0 + CONNECT_TIMEOUT \/ l = [].
Proof.
  intros G. induction l as [|c l IH]; intros t C N; cbn [ask]; [right; reflexivity|]. inversion C; subst.
  destruct (q_terminated c); [unfold check_port; destruct (_ && _); discriminate|]. destruct (q_type c); cbn [negb]; [|discriminate].
  rewrite H1, Z.eqb_refl. destruct (Z.ltb_spec (t0 + CONNECT_TIMEOUT) (q_now c)) as [Y|Y]; [discriminate|].
  intros A. assert (N' : forall i x, nth_error l i = Some x -> t + gap + Z.of_nat (S i) * gap <= q_now x).
  { intros i x E. specialize (N (S i) x E). lia. }
  left. pose proof (N 0%nat c eq_refl) as N0. destruct (IH (t + gap) H2 N' A) as [X|X]; [cbn [length]; lia|subst l; cbn [length]; lia].
Qed.
Lemma rejected_forever t0 x : c_terminated x = false -> c_connects x = true -> c_answer x = Some false ->
  forall m k, connect_loop t0 k (repeat x m) = StillConnecting (k + m).
Proof. intros A B C. induction m as [|m IH]; intros k; cbn [repeat connect_loop]; [f_equal; lia|]. rewrite A, B, C, IH. f_equal. lia. Qed.
