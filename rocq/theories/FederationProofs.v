(** Proof that grants are safe (C40). *)
From Verif Require Import Base Tag TagSpec TagProofs Pqueue PqueueProofs RtiDelays RtiDelaysSpec RtiDelaysProofs Rti RtiSpec RtiProofs Federation FederationSpec.
From Coq Require Import Arith.
Open Scope Z_scope.

(** ** Delays in exact arithmetic *)
Definition delayZ (a : tag) (d : Z) : tag :=
  if d <? 0 then a else if d =? 0 then mkTag (ttime a) (tmicro a + 1) else mkTag (ttime a + d) 0.
Definition arriveZ (a : tag) (ds : list Z) : tag := fold_left delayZ ds a.

Ltac tg := unfold tag_le, tag_lt in *; cbn [ttime tmicro] in *.

Lemma delayZ_mono a b d : tag_le a b -> tag_le (delayZ a d) (delayZ b d).
Proof. intros H. unfold delayZ. destruct (Z.ltb_spec d 0); [auto|]. destruct (Z.eqb_spec d 0); tg; lia. Qed.
Lemma delayZ_mono_d a d d' : d <= d' -> tag_le (delayZ a d) (delayZ a d').
Proof. intros H. unfold delayZ. destruct (Z.ltb_spec d 0), (Z.ltb_spec d' 0), (Z.eqb_spec d 0), (Z.eqb_spec d' 0); tg; lia. Qed.
Lemma delayZ_time a d : ttime (delayZ a d) = ttime a + Z.max 0 d.
Proof. unfold delayZ. destruct (Z.ltb_spec d 0), (Z.eqb_spec d 0); cbn [ttime]; lia. Qed.
Lemma arriveZ_mono ds : forall a b, tag_le a b -> tag_le (arriveZ a ds) (arriveZ b ds).
Proof. induction ds as [|d ds IH]; intros a b H; [exact H|]. apply IH, delayZ_mono, H. Qed.
Lemma arriveZ_time ds : forall a, ttime (arriveZ a ds) = ttime a + path_time ds.
Proof. induction ds as [|d ds IH]; intros a; cbn [arriveZ fold_left path_time]; [lia|]. fold (arriveZ (delayZ a d) ds). rewrite IH, delayZ_time. lia. Qed.
Lemma arriveZ_exact ds : forall a, arriveZ a ds = mkTag (ttime a + path_time ds) ((if path_time ds =? 0 then tmicro a else 0) + path_micro ds).
Proof.
  induction ds as [|d ds IH]; intros a; [cbn; destruct a as [t m]; cbn; f_equal; lia|]. cbn [arriveZ fold_left path_time path_micro]. fold (arriveZ (delayZ a d) ds).
  rewrite IH, delayZ_time. pose proof (path_time_nonneg ds). apply tag_eq; cbn [ttime tmicro]; [lia|]. unfold delayZ.
  destruct (Z.ltb_spec d 0), (Z.eqb_spec d 0), (Z.eqb_spec (path_time ds) 0), (Z.eqb_spec (Z.max 0 d + path_time ds) 0); cbn [tmicro andb]; lia.
Qed.
Lemma arriveZ_app a ds d : arriveZ a (ds ++ [d]) = delayZ (arriveZ a ds) d.
Proof. unfold arriveZ. rewrite fold_left_app. reflexivity. Qed.

Lemma delay_tag_exact c d : tag_ok c -> in_int64 d -> ttime c + Z.max 0 d < FOREVER -> ttime c <> NEVER -> tmicro c < UINT_MAX -> delay_tag c d = delayZ c d.
Proof.
  intros Hc Hd Ht Hn Hm. unfold delay_tag, delayZ. replace (ttime c =? NEVER) with false by lia. cbn [orb]. destruct (Z.ltb_spec d 0); [reflexivity|].
  replace (FOREVER - d <=? ttime c) with false by (symmetry; apply Z.leb_gt; lia). destruct (Z.eqb_spec d 0); [|reflexivity]. f_equal. apply Z.mod_small. tag_consts. lia.
Qed.

Lemma delay_strict_belowZ c x d : tag_ok c -> in_int64 d -> tag_lt c x -> 0 <= ttime x -> ttime (delayZ x d) < FOREVER -> tag_lt (delay_strict c d) (delayZ x d).
Proof.
  intros Hc Hd Hlt Hx Ht. rewrite delayZ_time in Ht. unfold delay_strict, delay_tag. destruct (Z.eqb_spec (ttime c) NEVER) as [En|Nn]; cbn [orb].
  - rewrite En. rewrite Z.eqb_refl. cbn [negb andb]. rewrite andb_false_r. cbn [andb]. eapply tag_lt_le_trans; [exact Hlt|]. unfold delayZ. destruct (Z.ltb_spec d 0), (Z.eqb_spec d 0); tg; lia.
  - destruct (Z.ltb_spec d 0) as [Dn|Dn].
    + replace (delayZ x d) with x by (unfold delayZ; replace (d <? 0) with true by lia; reflexivity). destruct (_ && _); [|exact Hlt]. tg. tag_consts. lia.
    + destruct (Z.leb_spec (FOREVER - d) (ttime c)) as [K|K]; [exfalso; tg; lia|]. unfold delayZ. replace (d <? 0) with false by lia.
      destruct (Z.eqb_spec d 0) as [D0|D0]; cbn [negb andb].
      * tg. pose proof (mod32_cases (tmicro c + 1)) as Hm. destruct Hlt as [Hlt|(Hlt & Hm2)]; [left; exact Hlt|right; split; [exact Hlt|]].
        assert (K2 : (tmicro c + 1) mod two32 <= tmicro c + 1) by (apply Z.mod_le; [tag_consts; lia|reflexivity]). lia.
      * destruct (_ && _) eqn:E; tg; [lia|]. exfalso. repeat rewrite andb_false_iff in E. repeat rewrite negb_false_iff in E. repeat rewrite Z.eqb_eq in E. tag_consts. lia.
Qed.

(** The entry of the table bounds every path. *)
Lemma entry_bound next D ds : tag_ok next -> 0 <= ttime next -> delay_ok D -> tag_le D (path_delay ds) -> tmicro next + tmicro D <= UINT_MAX ->
  ttime (arriveZ next ds) < FOREVER -> tag_le (tag_add next D) (arriveZ next ds).
Proof.
  intros Hn H0 HD Hle Hm Ht. rewrite arriveZ_time in Ht. rewrite arriveZ_exact. unfold path_delay in Hle.
  assert (Hle2 : ttime D <= path_time ds) by (tg; lia). pose proof (path_time_nonneg ds).
  destruct (tag_add_cases next D Hn HD) as [(K & _)|[(_ & K & _)|[(_ & _ & K & _)|(_ & _ & _ & ->)]]].
  - exfalso. tag_consts. lia.
  - exfalso. destruct HD as (_ & HD). lia.
  - exfalso. destruct HD as (HD1 & HD2). destruct (0 <? ttime D); tag_consts; lia.
  - destruct HD as (HD1 & HD2). destruct (Z.ltb_spec 0 (ttime D)), (Z.eqb_spec (path_time ds) 0); tg; destruct Hn; unfold in_uint32 in *; lia.
Qed.

Lemma path_unsnoc tp conn k ds e : upstream_path tp conn k ds e -> exists v d ds', ds = ds' ++ [d] /\ In (v, d) (tp_up tp e) /\ conn e = true /\ ((ds' = [] /\ v = k) \/ upstream_path tp conn k ds' v).
Proof.
  intros P0. induction P0 as [k d e H Hc|k d v ds e H Hc P IH]; [exists k, d, []; auto 8|].
  destruct IH as (w & d2 & ds' & -> & H1 & H2 & H3). exists w, d2, (d :: ds'). split; [reflexivity|]. split; [exact H1|]. split; [exact H2|]. right.
  destruct H3 as [(-> & ->)|H3]; [apply path_one; assumption|eapply path_step; eassumption].
Qed.
Lemma path_incl tp c1 c2 k ds e : (forall i, c1 i = true -> c2 i = true) -> upstream_path tp c1 k ds e -> upstream_path tp c2 k ds e.
Proof. intros H P. induction P as [k d e H1 Hc|k d v ds e H1 Hc P IH]; [apply path_one; auto|eapply path_step; eauto]. Qed.
Lemma path_end tp conn k ds e : upstream_path tp conn k ds e -> conn e = true.
Proof. induction 1; assumption. Qed.

(** ** The coverage of an activity: along the channel, the coordinator's record stays at or before it. *)
Fixpoint okc (a comp next : tag) (tr : list tag) (l : list umsg) : Prop :=
  tag_lt comp a /\ tag_le next a /\
  match l with
  | [] => True
  | UNet t :: l => okc a comp (min_tag (transit_peek tr) t) tr l
  | ULtc t :: l => okc a t next (transit_remove t tr) l
  | URem t :: l => okc a comp next (transit_remove t tr) l
  | UMsg _ _ _ :: l => okc a comp next tr l
  | UResign :: l => okc a comp next tr l
  end.

Lemma okc_now a c n tr l : okc a c n tr l -> tag_lt c a /\ tag_le n a.
Proof. destruct l; cbn; tauto. Qed.
Lemma okc_raise a l : forall c n n' tr, okc a c n tr l -> tag_le n' a -> okc a c n' tr l.
Proof. induction l as [|m l IH]; intros c n n' tr H Hn; cbn in *; [tauto|]. destruct H as (H1 & H2 & H3). split; [exact H1|]. split; [exact Hn|]. destruct m; try exact H3; eapply IH; eassumption. Qed.
Lemma okc_more a l : tag_lt a FOREVER_TAG -> forall c n tr tr', okc a c n tr l -> (forall x, In x tr -> In x tr') -> okc a c n tr' l.
Proof.
  intros Ha. induction l as [|m l IH]; intros c n tr tr' H Hi; cbn in *; [tauto|]. destruct H as (H1 & H2 & H3). split; [exact H1|]. split; [exact H2|]. destruct m; try (eapply IH; eassumption).
  - apply okc_now in H3 as K. destruct K as (_ & K). eapply okc_raise; [eapply IH; eassumption|].
    destruct (tag_le_total t a) as [L|L]; [eapply tag_le_trans; [apply (proj2 (min_tag_le _ _))|exact L]|].
    destruct (peek_in tr) as [E|E].
    + rewrite E in K. unfold min_tag in K. destruct (tag_compare FOREVER_TAG t <? 0); [exfalso; apply (tag_lt_irrefl a); eapply tag_lt_le_trans; [exact Ha|exact K]|]. eapply tag_le_trans; [apply (proj2 (min_tag_le _ _))|exact K].
    + eapply tag_le_trans; [|exact K]. unfold min_tag at 2. destruct (tag_compare (transit_peek tr) t <? 0); [|apply (proj2 (min_tag_le _ _))]. eapply tag_le_trans; [apply (proj1 (min_tag_le _ _))|]. apply peek_le, Hi, E.
  - eapply IH; [exact H3|]. intros x Hx. apply remove_in in Hx. apply remove_in. destruct Hx as (Hx1 & Hx2). split; [apply Hi, Hx1|exact Hx2].
  - eapply IH; [exact H3|]. intros x Hx. apply remove_in in Hx. apply remove_in. destruct Hx as (Hx1 & Hx2). split; [apply Hi, Hx1|exact Hx2].
Qed.
Lemma okc_prot a l : forall c n tr, In a tr -> tag_le n a -> tag_lt c a -> (forall t, In (ULtc t) l \/ In (URem t) l -> tag_lt t a) -> okc a c n tr l.
Proof.
  induction l as [|m l IH]; intros c n tr Hi Hn Hc Hl; cbn; [auto|]. split; [exact Hc|]. split; [exact Hn|].
  assert (Hl' : forall t, In (ULtc t) l \/ In (URem t) l -> tag_lt t a) by (intros t [K|K]; apply Hl; [left; now right|right; now right]).
  destruct m.
  - apply IH; try assumption. eapply tag_le_trans; [apply (proj1 (min_tag_le _ _))|apply peek_le, Hi].
  - assert (K : tag_lt t a) by (apply Hl; left; now left). apply IH; try assumption. apply remove_in. split; [exact Hi|now left].
  - apply IH; try assumption. apply remove_in. split; [exact Hi|]. left. apply Hl. right. now left.
  - apply IH; assumption.
  - apply IH; assumption.
Qed.
Lemma okc_snoc a m l : match m with UNet t => tag_le t a | ULtc t => tag_lt t a | URem t => False | _ => True end -> forall c n tr, okc a c n tr l -> okc a c n tr (l ++ [m]).
Proof.
  intros Hm. induction l as [|x l IH]; intros c n tr H.
  - cbn in H. cbn [app]. destruct H as (H1 & H2 & _). destruct m; cbn; try tauto. split; [exact H1|]. split; [exact H2|]. split; [exact H1|]. split; [|exact I]. eapply tag_le_trans; [apply (proj2 (min_tag_le _ _))|exact Hm].
  - cbn [app okc] in *. destruct H as (H1 & H2 & H3). split; [exact H1|]. split; [exact H2|]. destruct x; apply IH, H3.
Qed.
Lemma okc_app_l a l1 l2 : forall c n tr, okc a c n tr (l1 ++ l2) -> okc a c n tr l1.
Proof. induction l1 as [|m l1 IH]; intros c n tr H; [cbn in *; apply okc_now in H; tauto|]. cbn [app okc] in *. destruct H as (H1 & H2 & H3). split; [exact H1|]. split; [exact H2|]. destruct m; apply IH, H3. Qed.

Lemma filter_none {A} (l : list A) : filter (fun _ => tag_compare FOREVER_TAG FOREVER_TAG <? 0) l = [].
Proof. induction l as [|x l IH]; [reflexivity|]. cbn [filter]. exact IH. Qed.

Section Fed.
Variable tp : topo.
Variable start : Z.
Hypothesis Htp : topo_ok tp.
Hypothesis Hrange : forall i, (tp_n tp <= i)%nat -> tp_up tp i = [].
Hypothesis Hz : no_zero_delay_cycle tp.
Hypothesis Hs : 0 <= start < FOREVER.

Definition small (t : tag) : Prop := start <= ttime t < FOREVER /\ 0 <= tmicro t <= UINT_MAX - Z.of_nat (tp_n tp).
Definition good_tag (t : tag) : Prop := small t \/ t = FOREVER_TAG.

Lemma smallb_spec t : smallb tp start t = true <-> small t.
Proof. unfold smallb, small. rewrite !andb_true_iff, !Z.leb_le, Z.ltb_lt. lia. Qed.
Lemma small_ok t : small t -> tag_ok t.
Proof. intros (H1 & H2). tag_consts. lia. Qed.
Lemma small_start t : small t -> tag_le (mkTag start 0) t.
Proof. intros (H1 & H2). tg. lia. Qed.
Lemma small_forever t : small t -> tag_lt t FOREVER_TAG.
Proof. intros (H1 & H2). unfold FOREVER_TAG. tg. lia. Qed.
Lemma good_ok t : good_tag t -> tag_ok t.
Proof. intros [H| ->]; [apply small_ok, H|tag_consts; lia]. Qed.

Definition pend (f : fed) (n : rnode) (g : tag) : Prop := In (MMsg g) (skipn (f_rcvd f) (r_sent n)).
Definition lact (f : fed) (n : rnode) (a : tag) : Prop :=
  f_alive f = true /\ (In a (f_queue f) \/ f_cur f = Some a \/ (tag_le (f_promise f) a /\ tag_lt (f_done f) a /\ small a) \/ pend f n a).
Definition lorig (f : fed) (a : tag) : Prop := exists l1 j g l2, f_up f = l1 ++ UMsg j g a :: l2.

Definition up_ok (i : nat) (f : fed) (m : umsg) : Prop :=
  match m with
  | UNet t => good_tag t
  | ULtc t | URem t => tag_le t (f_done f) /\ tag_ok t
  | UMsg j g o => small o /\ small g /\ exists d, In (i, d) (tp_up tp j) /\ tag_le (delayZ o d) g
  | UResign => f_alive f = false
  end.

(** What holds of each federate and its record at the coordinator. *)
Record local (i : nat) (f : fed) (n : rnode) : Prop := {
  l_small : forall a, lact f n a -> small a;
  l_up : forall m, In m (f_up f) -> up_ok i f m;
  l_resign : forall l1 l2, f_up f = l1 ++ UResign :: l2 -> l2 = [];
  l_conn : r_connected n = false -> f_alive f = false /\ f_up f = [];
  l_next : r_next n = NEVER_TAG \/ good_tag (r_next n);
  l_transit : forall t, In t (r_transit n) -> small t;
  l_cov : r_connected n = true -> forall a, lact f n a -> okc a (r_completed n) (r_next n) (r_transit n) (f_up f);
  l_org : r_connected n = true -> forall l1 j g o l2, f_up f = l1 ++ UMsg j g o :: l2 -> okc o (r_completed n) (r_next n) (r_transit n) l1;
  l_cur : forall c, f_cur f = Some c -> c = f_done f;
  l_queue : forall a, f_alive f = true -> In a (f_queue f) -> tag_lt (f_done f) a;
  l_pend : forall g, f_alive f = true -> pend f n g -> tag_lt (f_done f) g /\ In g (r_transit n);
  l_done : tp_up tp i <> [] -> tag_le (f_done f) (f_grant f);
  l_dok : f_done f = NEVER_TAG \/ small (f_done f);
  l_grant : f_grant f = NEVER_TAG \/ In (MTag (f_grant f)) (firstn (f_rcvd f) (r_sent n));
  l_comp : tag_le (r_completed n) (f_done f) /\ tag_ok (r_completed n);
  l_log : grants_respected (r_sent n);
  l_nomsg : tp_up tp i = [] -> forall g, ~ In (MMsg g) (r_sent n);
  l_rcvd : (f_rcvd f <= length (r_sent n))%nat;
  l_gok : tag_le NEVER_TAG (r_granted n);
  l_gnn : forall t, In (MTag t) (r_sent n) -> tag_le NEVER_TAG t }.

Definition cpath (s : rti) (k : nat) (ds : list Z) (j : nat) : Prop := r_connected (s k) = true /\ upstream_path tp (fun i => r_connected (s i)) k ds j.
Definition active (fs : nat -> fed) (s : rti) (k : nat) (a : tag) : Prop := lact (fs k) (s k) a \/ lorig (fs k) a.
Definition safe (fs : nat -> fed) (s : rti) : Prop :=
  forall k ds j a, cpath s k ds j -> active fs s k a -> ttime (arriveZ a ds) < FOREVER -> tag_lt (r_granted (s j)) (arriveZ a ds).
Definition table_ok (s : rti) (e : nat) (c : list (nat * tag) * bool) : Prop :=
  snd c = false /\ (forall k D, In (k, D) (fst c) -> delay_ok D /\ tmicro D <= Z.of_nat (tp_n tp)) /\
  (forall k ds, upstream_path tp (fun i => r_connected (s i)) k ds e -> path_time ds < FOREVER -> exists D, In (k, D) (fst c) /\ tag_le D (path_delay ds)).
Record Inv (fs : nat -> fed) (s : rti) : Prop := {
  i_local : forall i, local i (fs i) (s i);
  i_safe : safe fs s;
  i_delays : forall e c, r_delays (s e) = Some c -> table_ok s e c;
  i_order : order_inv tp s }.

(** ** Consequences *)
Lemma active_small fs s k a : Inv fs s -> active fs s k a -> small a.
Proof.
  intros H [K|(l1 & j & g & l2 & K)]; [apply (l_small _ _ _ (i_local _ _ H k)), K|].
  assert (U : up_ok k (fs k) (UMsg j g a)) by (apply (l_up _ _ _ (i_local _ _ H k)); rewrite K; apply in_or_app; right; now left). apply U.
Qed.
Lemma active_cov fs s k a : Inv fs s -> r_connected (s k) = true -> active fs s k a -> tag_lt (r_completed (s k)) a /\ tag_le (r_next (s k)) a.
Proof.
  intros H C [K|(l1 & j & g & l2 & K)].
  - eapply okc_now. apply (l_cov _ _ _ (i_local _ _ H k) C). exact K.
  - eapply okc_now. eapply (l_org _ _ _ (i_local _ _ H k) C). exact K.
Qed.
Lemma completed_granted fs s k : Inv fs s -> tp_up tp k <> [] -> tag_le (f_done (fs k)) (r_granted (s k)) /\ tag_le (r_completed (s k)) (r_granted (s k)).
Proof.
  intros H U. pose proof (i_local _ _ H k) as L. assert (K : tag_le (f_done (fs k)) (r_granted (s k))).
  { eapply tag_le_trans; [apply (l_done _ _ _ L U)|]. destruct (l_grant _ _ _ L) as [->|K]; [apply L|].
    destruct (i_order _ _ H k) as (_ & _ & O). unfold strict_node in O. destruct (tp_up tp k); [contradiction|]. apply O; [reflexivity|]. rewrite <- (firstn_skipn (f_rcvd (fs k))). apply in_or_app. now left. }
  split; [exact K|]. eapply tag_le_trans; [apply (l_comp _ _ _ L)|exact K].
Qed.

(** ** Steps of the coordinator that change neither connections, logs nor grants *)
Definition same_core (n n' : rnode) : Prop :=
  r_connected n' = r_connected n /\ r_completed n' = r_completed n /\ r_granted n' = r_granted n /\ r_ptag n' = r_ptag n /\ r_transit n' = r_transit n /\ r_sent n' = r_sent n.
Lemma lact_core f n n' a : same_core n n' -> lact f n' a <-> lact f n a.
Proof. intros (_ & _ & _ & _ & _ & E). unfold lact, pend. rewrite E. reflexivity. Qed.
Lemma local_core i f n n' : local i f n -> same_core n n' -> (r_next n' = r_next n \/ r_next n' = mkTag start 0) -> local i f n'.
Proof.
  intros L C Hn. pose proof C as (E1 & E2 & E3 & E4 & E5 & E6). destruct L. 
  assert (Ss : small (mkTag start 0)) by (destruct Htp; split; cbn [ttime tmicro]; tag_consts; lia).
  constructor; rewrite ?E1, ?E2, ?E3, ?E5, ?E6; try assumption.
  - intros a Ha. apply l_small0. apply (lact_core f n n' a C). exact Ha.
  - destruct Hn as [-> | ->]; [assumption|right; left; exact Ss].
  - intros Hc a Ha. apply (lact_core f n n' a C) in Ha. specialize (l_cov0 Hc a Ha). destruct Hn as [-> | ->]; [assumption|]. eapply okc_raise; [exact l_cov0|]. apply small_start, l_small0, Ha.
  - intros Hc l1 j g o l2 E. specialize (l_org0 Hc l1 j g o l2 E). destruct Hn as [-> | ->]; [assumption|]. eapply okc_raise; [exact l_org0|]. apply small_start.
    assert (U : up_ok i f (UMsg j g o)) by (apply l_up0; rewrite E; apply in_or_app; right; now left). apply U.
  - intros g Ha Hp. apply l_pend0; [exact Ha|]. unfold pend in *. rewrite E6 in Hp. exact Hp.
Qed.
Lemma cpath_conn s s' k ds j : (forall i, r_connected (s' i) = true -> r_connected (s i) = true) -> cpath s' k ds j -> cpath s k ds j.
Proof. intros H (P1 & P2). split; [apply H, P1|]. eapply path_incl; [|exact P2]. exact H. Qed.
Lemma inv_core fs s s' : Inv fs s -> (forall i, same_core (s i) (s' i)) -> (forall i, r_next (s' i) = r_next (s i) \/ r_next (s' i) = mkTag start 0) ->
  (forall e c, r_delays (s' e) = Some c -> table_ok s' e c) -> Inv fs s'.
Proof.
  intros H C Hn Hd. constructor.
  - intros i. eapply local_core; [apply (i_local _ _ H)|apply C|apply Hn].
  - intros k ds j a P A T. destruct (C j) as (_ & _ & -> & _). apply (i_safe _ _ H k ds j a); [|destruct A as [A|A]; [left; apply (lact_core (fs k) (s k) (s' k) a (C k)); exact A|right; exact A]|exact T].
    eapply cpath_conn; [|exact P]. intros i. destruct (C i) as (-> & _). auto.
  - exact Hd.
  - intros e. destruct (C e) as (_ & _ & E3 & E4 & _ & E6). pose proof (i_order _ _ H e) as O. unfold log_inv in *. rewrite E3, E4, E6. exact O.
Qed.
Lemma table_conn s s' e c : (forall i, r_connected (s' i) = true -> r_connected (s i) = true) -> table_ok s e c -> table_ok s' e c.
Proof.
  intros H (T1 & T2 & T3). split; [exact T1|]. split; [exact T2|]. intros k ds P Ht. apply T3; [|exact Ht]. eapply path_incl; [|exact P]. exact H.
Qed.

Lemma computed_ok s e :
  table_ok s e (match compute_delays tp (fun i => r_connected (s i)) e with Delays table zdc _ => (table, zdc) | _ => ([], false) end).
Proof.
  destruct (lt_dec e (tp_n tp)) as [He|He].
  - destruct (compute_ok tp (fun i => r_connected (s i)) e Htp He) as (d & G & R & ->). split; [|split].
    + cbn [snd]. destruct (d_zdc d) eqn:Z; [|reflexivity]. exfalso. apply (g_zdc _ _ _ d G) in Z. destruct (g_att _ _ _ d G e) as [K|(ds & P & K & Ht & _)]; [rewrite K in Z; discriminate|].
      destruct (Hz e ds) as (x & Hx & Hx0); [eapply path_incl; [|exact P]; reflexivity|]. rewrite K in Z. unfold path_delay, ZERO_TAG in Z. injection Z as Z1 Z2. clear - Z1 Z2 Hx Hx0.
      induction ds as [|y ds IH]; [destruct Hx|]. cbn [path_time path_micro] in *. pose proof (path_time_nonneg ds). pose proof (path_micro_bound ds).
      assert (E1 : path_time ds = 0) by lia. rewrite E1 in *. destruct (Z.eqb_spec y 0) as [->|n]; cbn [andb Z.eqb] in Z2; [lia|]. destruct Hx as [<-|Hx]; [lia|]. apply IH; [lia|lia|exact Hx].
    + cbn [fst]. intros k D Hin. apply in_map_iff in Hin. destruct Hin as (i & Ei & Hi). injection Ei as <- <-. apply filter_In in Hi. destruct Hi as (_ & F).
      destruct (g_att _ _ _ d G i) as [K|(ds & P & K & Ht & Hl)]; [rewrite K in F; discriminate|]. rewrite K. split; [apply (path_delay_ok tp (fun i => r_connected (s i)) e Htp); assumption|]. unfold path_delay. cbn [tmicro]. pose proof (path_micro_bound ds). lia.
    + cbn [fst]. intros k ds P Ht. exists (d_path d k). pose proof (relaxed_path _ _ _ Htp He d G R k ds P Ht) as L. split; [|exact L]. apply in_map_iff. exists k. split; [reflexivity|]. apply filter_In.
      split; [apply in_seq; pose proof (path_source_range _ _ _ Htp He k ds P); lia|]. unfold finiteb. apply cmp_lt0. eapply tag_le_lt_trans; [exact L|]. unfold path_delay, FOREVER_TAG. tg. lia.
  - assert (E : tp_up tp e = []) by (apply Hrange; lia). unfold compute_delays. cbn [update_delays]. rewrite E. cbn [relax_loop]. destruct (r_connected (s e)).
    all: cbn [d_path d_count d_zdc d_cycle]; replace (filter _ _) with (@nil nat) by (symmetry; apply filter_none); cbn [length Nat.ltb Nat.leb map].
    all: split; [reflexivity|]; split; [intros k D []|]; intros k ds P; exfalso; apply path_unsnoc in P; destruct P as (v & d & ds' & _ & Hin & _); rewrite E in Hin; destruct Hin.
Qed.

Lemma inv_cache fs s e : Inv fs s -> r_delays (s e) = None ->
  Inv fs (on s e (set_delays (Some (match compute_delays tp (fun i => r_connected (s i)) e with Delays table zdc _ => (table, zdc) | _ => ([], false) end)))).
Proof.
  intros H _. set (c := match _ with Delays _ _ _ => _ | _ => _ end). assert (Hc : table_ok s e c) by apply computed_ok. clearbody c.
  assert (K : forall i, r_connected (on s e (set_delays (Some c)) i) = r_connected (s i)) by (intros i; destruct (Nat.eq_dec e i) as [<-|n]; [rewrite on_same|rewrite on_other by exact n]; reflexivity).
  apply (inv_core fs s); [exact H| | |].
  - intros i. destruct (Nat.eq_dec e i) as [<-|n]; [rewrite on_same|rewrite on_other by exact n]; unfold same_core; auto 10.
  - intros i. destruct (Nat.eq_dec e i) as [<-|n]; [rewrite on_same|rewrite on_other by exact n]; now left.
  - intros e' c'. destruct (Nat.eq_dec e e') as [<-|n]; [rewrite on_same|rewrite on_other by exact n]; intros E.
    + cbn in E. injection E as <-. eapply table_conn; [|exact Hc]. intros i. rewrite K. auto.
    + eapply table_conn; [|apply (i_delays _ _ H), E]. intros i. rewrite K. auto.
Qed.
Lemma inv_start fs s k : Inv fs s -> r_next (s k) = NEVER_TAG -> Inv fs (on s k (set_next (mkTag start 0))).
Proof.
  intros H _. assert (K : forall i, r_connected (on s k (set_next (mkTag start 0)) i) = r_connected (s i)) by (intros i; destruct (Nat.eq_dec k i) as [<-|n]; [rewrite on_same|rewrite on_other by exact n]; reflexivity).
  apply (inv_core fs s); [exact H| | |].
  - intros i. destruct (Nat.eq_dec k i) as [<-|n]; [rewrite on_same|rewrite on_other by exact n]; unfold same_core; auto 10.
  - intros i. destruct (Nat.eq_dec k i) as [<-|n]; [rewrite on_same; now right|rewrite on_other by exact n; now left].
  - intros e' c' E. apply (table_conn s); [intros i; rewrite K; auto|]. apply (i_delays _ _ H). destruct (Nat.eq_dec k e') as [<-|n]; [rewrite on_same in E|rewrite on_other in E by exact n]; exact E.
Qed.

(** ** What the search for a grant leaves unchanged *)
Definition ext (s s' : rti) : Prop := forall i, same_core (s i) (s' i) /\ (r_next (s i) <> NEVER_TAG -> r_next (s' i) = r_next (s i)) /\
  (forall c, r_delays (s i) = Some c -> r_delays (s' i) = Some c).
Lemma ext_refl s : ext s s. Proof. intros i. split; [unfold same_core; auto 10|auto]. Qed.
Lemma ext_on s0 s e f : ext s0 s -> same_core (s e) (f (s e)) -> (r_next (s e) <> NEVER_TAG -> r_next (f (s e)) = r_next (s e)) -> (forall c, r_delays (s e) = Some c -> r_delays (f (s e)) = Some c) -> ext s0 (on s e f).
Proof.
  intros H C N D i. destruct (H i) as (H1 & H2 & H3). destruct (Nat.eq_dec e i) as [<-|n]; [rewrite on_same|rewrite on_other by exact n; auto].
  split; [unfold same_core in *; intuition congruence|]. split; [intros K; rewrite N by (rewrite H2 by exact K; exact K); apply H2, K|]. intros c K. apply D, H3, K.
Qed.
Lemma ext_cache s0 s e c : ext s0 s -> r_delays (s e) = None -> ext s0 (on s e (set_delays (Some c))).
Proof. intros H E. apply ext_on; [exact H|unfold same_core; auto 10|auto|]. intros c'. rewrite E. discriminate. Qed.
Lemma ext_start s0 s k : ext s0 s -> r_next (s k) = NEVER_TAG -> ext s0 (on s k (set_next (mkTag start 0))).
Proof. intros H E. apply ext_on; [exact H|unfold same_core; auto 10| |auto]. intros K. contradiction. Qed.

Lemma eimt_loop_ext s0 l s t : ext s0 s -> ext s0 (fst (eimt_loop start l s t)).
Proof. apply (eimt_loop_P start (ext s0)). intros; apply ext_start; assumption. Qed.
Lemma eimt_loop_bound l : forall s t, tag_le (snd (eimt_loop start l s t)) t /\
  forall k D, In (k, D) l -> r_next (fst (eimt_loop start l s t) k) <> NEVER_TAG /\ tag_le (snd (eimt_loop start l s t)) (tag_add (r_next (fst (eimt_loop start l s t) k)) D).
Proof.
  induction l as [|(k0 & D0) l IH]; intros s t; [split; [apply tag_le_refl|intros k D []]|]. cbn [eimt_loop]. set (s1 := assume_start start s k0). set (x := tag_add (r_next (s1 k0)) D0).
  set (t1 := if tag_compare x t <? 0 then x else t). destruct (IH s1 t1) as (B1 & B2).
  assert (T : tag_le t1 t /\ tag_le t1 x) by apply (conj (proj2 (min_tag_le x t)) (proj1 (min_tag_le x t))).
  split; [eapply tag_le_trans; [exact B1|apply T]|]. intros k D [E|E]; [|apply B2, E]. injection E as <- <-.
  assert (N : r_next (s1 k0) <> NEVER_TAG).
  { unfold s1, assume_start. destruct (tag_compare (r_next (s k0)) NEVER_TAG =? 0) eqn:C; [rewrite on_same; cbn [r_next set_next]; unfold NEVER_TAG; intros K; injection K as K; tag_consts; lia|]. intros K. rewrite K in C. discriminate. }
  destruct (eimt_loop_ext s1 l s1 t1 (ext_refl s1) k0) as (_ & E2 & _). rewrite (E2 N). split; [exact N|]. eapply tag_le_trans; [exact B1|]. apply T.
Qed.

(** A grant found by the search is before everything that can still arrive. *)
Lemma min_completed_le s : forall l m, tag_le (min_completed s l m) m /\ forall k d, In (k, d) l -> r_connected (s k) = true -> tag_le (min_completed s l m) (delay_strict (r_completed (s k)) d).
Proof.
  induction l as [|(k0 & d0) l IH]; intros m; [split; [apply tag_le_refl|intros k d []]|]. cbn [min_completed]. destruct (r_connected (s k0)) eqn:C.
  - set (c := delay_strict _ d0). destruct (IH (if tag_compare c m <? 0 then c else m)) as (B1 & B2). assert (T := min_tag_le c m). fold (min_tag c m) in *.
    split; [eapply tag_le_trans; [exact B1|apply T]|]. intros k d [E|E] Ck; [|apply B2; assumption]. injection E as <- <-. eapply tag_le_trans; [exact B1|apply T].
  - destruct (IH m) as (B1 & B2). split; [exact B1|]. intros k d [E|E] Ck; [injection E as <- <-; congruence|apply B2; assumption].
Qed.

Definition grant_fits (fs : nat -> fed) (s : rti) (e : nat) (t : tag) : Prop :=
  forall k ds a, cpath s k ds e -> active fs s k a -> ttime (arriveZ a ds) < FOREVER -> tag_lt t (arriveZ a ds).

Lemma completed_fits fs s e : Inv fs s -> grant_fits fs s e (min_completed s (tp_up tp e) FOREVER_TAG).
Proof.
  intros H k ds a (Ck & P) A T. destruct (path_unsnoc _ _ _ _ _ P) as (v & d & ds' & -> & Hin & _ & Hv). rewrite arriveZ_app in *.
  assert (Cv : r_connected (s v) = true) by (destruct Hv as [(_ & ->)|Hv]; [exact Ck|eapply (path_end _ _ _ _ _ Hv)]).
  pose proof (active_small _ _ _ _ H A) as Sa. assert (T0 : 0 <= ttime (arriveZ a ds')) by (rewrite arriveZ_time; pose proof (path_time_nonneg ds'); destruct Sa; lia).
  eapply tag_le_lt_trans; [apply (proj2 (min_completed_le s (tp_up tp e) FOREVER_TAG)); [exact Hin|exact Cv]|].
  apply delay_strict_belowZ; [apply (l_comp _ _ _ (i_local _ _ H v))|apply Htp in Hin; tauto| |exact T0|exact T].
  destruct Hv as [(-> & ->)|Hv]; [apply (active_cov _ _ _ _ H Ck A)|].
  assert (U : tp_up tp v <> []). { destruct (path_unsnoc _ _ _ _ _ Hv) as (w & d2 & ? & _ & Hw & _). intros K. rewrite K in Hw. destruct Hw. }
  eapply tag_le_lt_trans; [apply (completed_granted _ _ v H U)|]. apply (i_safe _ _ H k ds' v a); [split; assumption|exact A|]. rewrite delayZ_time in T. lia.
Qed.

Lemma eimt_fits fs s e s' t : Inv fs s -> eimt tp start s e = (s', t) -> Inv fs s' /\ (forall s2, ext s' s2 -> Inv fs s2 -> tag_lt (r_next (s2 e)) t -> r_next (s2 e) <> NEVER_TAG -> grant_fits fs s2 e (r_next (s2 e))).
Proof.
  intros H E. split; [pose proof (eimt_P tp start (Inv fs) (inv_cache fs) (inv_start fs) s e H) as K; rewrite E in K; exact K|].
  intros s2 X H2 Hlt Hnn k ds a (Ck & P) A T.
  unfold eimt in E. destruct (node_delays tp s e) as [s1 c] eqn:E1.
  assert (D1 : r_delays (s1 e) = Some c) by (unfold node_delays in E1; destruct (r_delays (s e)) eqn:D; injection E1 as <- <-; [exact D|rewrite on_same; reflexivity]).
  pose proof (eimt_loop_bound (fst c) s1 FOREVER_TAG) as (B1 & B2). pose proof (eimt_loop_ext s1 (fst c) s1 FOREVER_TAG (ext_refl s1)) as X1. rewrite E in *. cbn [fst snd] in *.
  destruct (X1 e) as (_ & _ & D2). destruct (X e) as (_ & _ & D3). specialize (D3 c (D2 c D1)). destruct (i_delays _ _ H2 e c D3) as (_ & T2 & T3).
  pose proof (active_small _ _ _ _ H2 A) as Sa. rewrite arriveZ_time in T. assert (Pt : path_time ds < FOREVER) by (destruct Sa; lia).
  destruct (T3 k ds P Pt) as (D & Din & Dle). destruct (T2 k D Din) as (Dok & Dm). destruct (B2 k D Din) as (N & B). destruct (X k) as (_ & N2 & _). pose proof (N2 N) as N3. rewrite <- N3 in B. assert (N4 : r_next (s2 k) <> NEVER_TAG) by (rewrite N3; exact N).
  destruct (active_cov _ _ _ _ H2 Ck A) as (_ & Cov).
  assert (Sn : small (r_next (s2 k))).
  { destruct (l_next _ _ _ (i_local _ _ H2 k)) as [K|[K|K]]; [contradiction|exact K|]. exfalso. rewrite K in Cov. apply (tag_lt_irrefl a). eapply tag_lt_le_trans; [apply small_forever, Sa|exact Cov]. }
  eapply tag_lt_le_trans; [exact Hlt|]. eapply tag_le_trans; [exact B|]. eapply tag_le_trans; [|apply arriveZ_mono, Cov].
  apply entry_bound; [apply small_ok, Sn|destruct Sn; lia|exact Dok|exact Dle|destruct Sn; lia|]. rewrite arriveZ_time. assert (ttime (r_next (s2 k)) <= ttime a) by (clear - Cov; tg; lia). lia.
Qed.

Lemma strict_ext s e : ext s (fst (eimt_strict tp start s e)).
Proof. apply (eimt_strict_P tp start (ext s)); [intros; apply ext_cache; assumption|intros; apply ext_start; assumption|apply ext_refl]. Qed.

Lemma grant_ok fs s e s' g : Inv fs s -> grant_if_safe tp start s e = (s', g) -> Inv fs s' /\ match g with Some (t, p) => p = false /\ (t <> NEVER_TAG -> grant_fits fs s' e t) | None => True end.
Proof.
  intros H E. split; [pose proof (grant_if_safe_P tp start (Inv fs) (inv_cache fs) (inv_start fs) s e H) as K; rewrite E in K; exact K|].
  unfold grant_if_safe in E. destruct (_ && _) in E.
  - injection E as <- <-. split; [reflexivity|]. intros _. apply completed_fits, H.
  - destruct (eimt tp start s e) as [s1 td] eqn:E1. destruct (eimt_fits fs s e s1 td H E1) as (H1 & F). pose proof (strict_ext s1 e) as X. 
    pose proof (eimt_strict_P tp start (Inv fs) (inv_cache fs) (inv_start fs) s1 e H1) as H2. destruct (eimt_strict tp start s1 e) as [s2 ts]. cbn [fst] in *.
    destruct (_ && _ && _ && _) eqn:C in E.
    + injection E as <- <-. split; [reflexivity|]. intros N. rewrite !andb_true_iff in C. destruct C as (((C1 & C2) & _) & _). apply cmp_gt0 in C1. apply (F s2 X H2 C1 N).
    + destruct (_ =? 0) in E; [|injection E as <- <-; exact I]. destruct (node_delays tp s2 e) as [s3 c] eqn:E3.
      assert (Z : snd c = false).
      { pose proof (node_delays_P tp (Inv fs) (inv_cache fs) s2 e H2) as H3. rewrite E3 in H3. cbn [fst] in H3. apply (i_delays _ _ H3 e).
        unfold node_delays in E3. destruct (r_delays (s2 e)) eqn:D; injection E3 as <- <-; [exact D|rewrite on_same; reflexivity]. }
      rewrite Z in E. cbn [andb] in E. injection E as <- <-. exact I.
Qed.

(** ** Grants *)
Lemma skipn_snoc {A} k (l : list A) m : (k <= length l)%nat -> skipn k (l ++ [m]) = skipn k l ++ [m].
Proof. intros H. rewrite skipn_app. replace (k - length l)%nat with 0%nat by lia. reflexivity. Qed.
Lemma firstn_snoc {A} k (l : list A) m : (k <= length l)%nat -> firstn k (l ++ [m]) = firstn k l.
Proof. intros H. rewrite firstn_app. replace (k - length l)%nat with 0%nat by lia. apply app_nil_r. Qed.
Lemma snoc_split {A} (l l1 l2 : list A) m x : l ++ [m] = l1 ++ x :: l2 -> (l2 = [] /\ x = m /\ l1 = l) \/ exists l2', l2 = l2' ++ [m] /\ l = l1 ++ x :: l2'.
Proof.
  intros E. destruct l2 as [|y l2] using rev_ind.
  - apply app_inj_tail in E. left. destruct E as (-> & ->). auto.
  - rewrite app_comm_cons, app_assoc in E. apply app_inj_tail in E. destruct E as (-> & ->). right. eauto.
Qed.

Lemma inv_tag fs s e t : Inv fs s -> grant_fits fs s e t -> Inv fs (notify_tag (fun _ => true) s e t).
Proof.
  intros H F. pose proof (order_tag tp (fun _ => true) s e t (i_order _ _ H)) as O. revert O. unfold notify_tag. destruct (_ || _ || _) eqn:C; intros O; [exact H|]. apply orb_false_iff in C. destruct C as (C & _). apply orb_false_iff in C. destruct C as (_ & C). apply cmp_le0_false in C.
  set (n' := fun n => set_granted t (add_sent (MTag t) n)).
  assert (K : forall i, r_connected (on s e n' i) = r_connected (s i)) by (intros i; destruct (Nat.eq_dec e i) as [<-|n]; [rewrite on_same|rewrite on_other by exact n]; reflexivity).
  assert (Le : local e (fs e) (n' (s e))).
  { pose proof (i_local _ _ H e) as L. pose proof (l_rcvd _ _ _ L) as R.
    assert (PE : forall g, pend (fs e) (n' (s e)) g <-> pend (fs e) (s e) g).
    { intros g. unfold pend, n'. cbn [r_sent set_granted add_sent]. rewrite skipn_snoc by exact R. rewrite in_app_iff. cbn [In]. intuition discriminate. }
    assert (AE : forall a, lact (fs e) (n' (s e)) a <-> lact (fs e) (s e) a) by (intros a; unfold lact; rewrite PE; reflexivity).
    destruct L. constructor; try assumption.
    - intros a Ha. apply l_small0, AE, Ha.
    - intros Hc a Ha. apply l_cov0; [exact Hc|]. apply AE, Ha.
    - intros g Ha Hp. apply l_pend0; [exact Ha|]. apply PE, Hp.
    - unfold n'. cbn [r_sent set_granted add_sent]. rewrite firstn_snoc by exact R. exact l_grant0.
    - unfold n'. cbn [r_sent set_granted add_sent]. intros l1 t' l2 g E Hg. apply snoc_split in E. destruct E as [(-> & _)|(l2' & -> & E)]; [destruct Hg|]. apply in_app_or in Hg. destruct Hg as [Hg|[Hg|[]]]; [|discriminate]. eapply l_log0; eassumption.
    - intros U g Hg. unfold n' in Hg. cbn [r_sent set_granted add_sent] in Hg. apply in_app_or in Hg. destruct Hg as [Hg|[Hg|[]]]; [|discriminate]. eapply l_nomsg0; eassumption.
    - unfold n'. cbn [r_sent set_granted add_sent]. rewrite app_length. lia.
    - unfold n'. cbn [r_granted set_granted]. apply tag_lt_le. eapply tag_le_lt_trans; [exact l_gok0|exact C].
    - unfold n'. cbn [r_sent set_granted add_sent]. intros t' Ht. apply in_app_or in Ht. destruct Ht as [Ht|[Ht|[]]]; [apply l_gnn0, Ht|]. injection Ht as <-. apply tag_lt_le. eapply tag_le_lt_trans; [exact l_gok0|exact C]. }
  assert (AA : forall k a, active fs (on s e n') k a -> active fs s k a).
  { intros k a [A|A]; [|right; exact A]. left. destruct (Nat.eq_dec e k) as [<-|n]; [rewrite on_same in A|rewrite on_other in A by exact n; exact A].
    unfold lact, pend, n' in *. cbn [r_sent set_granted add_sent] in A. rewrite skipn_snoc in A by (apply (l_rcvd _ _ _ (i_local _ _ H e))). rewrite in_app_iff in A. cbn [In] in A. intuition discriminate. }
  constructor.
  - intros i. destruct (Nat.eq_dec e i) as [<-|n]; [rewrite on_same; exact Le|rewrite on_other by exact n; apply (i_local _ _ H)].
  - intros k ds j a P A T. assert (P' : cpath s k ds j) by (eapply cpath_conn; [|exact P]; intros i; rewrite K; auto). apply AA in A.
    destruct (Nat.eq_dec e j) as [<-|n]; [rewrite on_same; cbn; apply (F k ds a P' A T)|rewrite on_other by exact n; apply (i_safe _ _ H k ds j a P' A T)].
  - intros e' c E. apply (table_conn s); [intros i; rewrite K; auto|]. apply (i_delays _ _ H). destruct (Nat.eq_dec e e') as [<-|n]; [rewrite on_same in E|rewrite on_other in E by exact n]; exact E.
  - exact O.
Qed.
Lemma inv_safe fs s e : Inv fs s -> Inv fs (notify_if_safe tp start (fun _ => true) s e).
Proof.
  intros H. unfold notify_if_safe. destruct (grant_if_safe tp start s e) as [s1 g] eqn:E. destruct (grant_ok _ _ _ _ _ H E) as (H1 & G). destruct g as [(t & p)|]; [|exact H1].
  destruct (tag_compare t NEVER_TAG =? 0) eqn:C; [exact H1|]. destruct G as (-> & G). apply inv_tag; [exact H1|]. apply G. intros ->. discriminate C.
Qed.

(** ** One federate, or its record at the coordinator, changes. *)
Definition just (fs : nat -> fed) (s : rti) (i : nat) (a : tag) : Prop :=
  (exists a0, active fs s i a0 /\ tag_le a0 a) \/
  (exists k d o, r_connected (s k) = true /\ active fs s k o /\ In (k, d) (tp_up tp i) /\ tag_le (delayZ o d) a).
Lemma tag_le_time a b : tag_le a b -> ttime a <= ttime b.
Proof. tg. lia. Qed.
Lemma inv_upd fs s fs' s' i : Inv fs s -> (forall j, j <> i -> fs' j = fs j /\ s' j = s j) -> local i (fs' i) (s' i) ->
  r_delays (s' i) = r_delays (s i) -> (r_connected (s' i) = true -> r_connected (s i) = true) -> (r_granted (s' i) = r_granted (s i) \/ tp_up tp i = []) ->
  log_inv (strict_node tp i) (s' i) -> (r_connected (s' i) = true -> forall a, active fs' s' i a -> just fs s i a) -> Inv fs' s'.
Proof.
  intros H Ho L D C G O A.
  assert (K : forall j, r_connected (s' j) = true -> r_connected (s j) = true) by (intros j; destruct (Nat.eq_dec j i) as [->|n]; [exact C|destruct (Ho j n) as (_ & ->); auto]).
  constructor.
  - intros j. destruct (Nat.eq_dec j i) as [->|n]; [exact L|destruct (Ho j n) as (-> & ->); apply (i_local _ _ H)].
  - intros k ds j a P Ha T. pose proof (cpath_conn s s' k ds j K P) as P'.
    assert (Gj : r_granted (s' j) = r_granted (s j)).
    { destruct (Nat.eq_dec j i) as [->|n]; [|destruct (Ho j n) as (_ & ->); reflexivity]. destruct G as [G|G]; [exact G|]. exfalso. destruct P as (_ & P). apply path_unsnoc in P. destruct P as (v & d & ds' & _ & Hin & _). rewrite G in Hin. destruct Hin. }
    rewrite Gj. destruct (Nat.eq_dec k i) as [->|n].
    + destruct (A (proj1 P) a Ha) as [(a0 & A0 & L0)|(k0 & d & o & C0 & A0 & Hin & L0)].
      * pose proof (arriveZ_mono ds a0 a L0) as M. eapply tag_lt_le_trans; [|exact M]. apply (i_safe _ _ H i ds j a0 P' A0). pose proof (tag_le_time _ _ M). lia.
      * pose proof (arriveZ_mono ds _ _ L0) as M. eapply tag_lt_le_trans; [|exact M]. apply (i_safe _ _ H k0 (d :: ds) j o); [split; [exact C0|]|exact A0|cbn; fold (arriveZ (delayZ o d) ds); pose proof (tag_le_time _ _ M); lia].
        destruct P' as (P1 & P2). eapply path_step; [exact Hin|exact P1|exact P2].
    + apply (i_safe _ _ H k ds j a P'); [|exact T]. unfold active in *. destruct (Ho k n) as (-> & ->) in Ha. exact Ha.
  - intros e c E. apply (table_conn s); [exact K|]. apply (i_delays _ _ H). destruct (Nat.eq_dec e i) as [->|n]; [rewrite <- D; exact E|destruct (Ho e n) as (_ & <-); exact E].
  - intros j. destruct (Nat.eq_dec j i) as [->|n]; [exact O|destruct (Ho j n) as (_ & ->); apply (i_order _ _ H)].
Qed.
Lemma log_same b n n' : log_inv b n -> r_sent n' = r_sent n -> r_granted n' = r_granted n -> r_ptag n' = r_ptag n -> log_inv b n'.
Proof. unfold log_inv. intros H -> -> ->. exact H. Qed.

(** Only the federate changes. *)
Lemma inv_fed fs s i f : Inv fs s -> local i f (s i) -> (r_connected (s i) = true -> forall a, lact f (s i) a \/ lorig f a -> exists a0, active fs s i a0 /\ tag_le a0 a) -> Inv (upd fs i f) s.
Proof.
  intros H L A. apply (inv_upd fs s _ s i H); [|rewrite upd_eq; exact L|reflexivity|auto|now left|apply (i_order _ _ H)|].
  - intros j n. split; [apply upd_neq, n|reflexivity].
  - intros C a Ha. left. apply A; [exact C|]. unfold active in Ha. rewrite upd_eq in Ha. exact Ha.
Qed.

(** ** The federates *)
Lemma okc_mono a a' l : tag_le a a' -> forall c n tr, okc a c n tr l -> okc a' c n tr l.
Proof.
  intros M. induction l as [|m l IH]; intros c n tr H; cbn in *; (split; [eapply tag_lt_le_trans; [apply H|exact M]|]; split; [eapply tag_le_trans; [apply H|exact M]|]); [exact I|].
  destruct H as (_ & _ & H). destruct m; apply IH, H.
Qed.
Lemma small_never t : small t -> tag_lt NEVER_TAG t.
Proof. intros (H1 & H2). unfold NEVER_TAG. tg. tag_consts. lia. Qed.

Lemma local_push i f n m : local i f n -> up_ok i f m -> ~ In UResign (f_up f) -> r_connected n = true ->
  (forall a, lact f n a -> pend f n a \/ match m with UNet t => tag_le t a | ULtc t => tag_lt t a | URem _ => False | _ => True end) ->
  (forall j g o, m = UMsg j g o -> lact f n o) -> local i (push f m) n.
Proof.
  intros L Um Nr C Ha Ho.
  assert (UP : forall m', up_ok i f m' -> up_ok i (push f m) m') by (intros m' K; destruct m'; exact K).
  destruct L. constructor; try assumption.
  - intros m' Hm. cbn [f_up push] in Hm. apply in_app_or in Hm. destruct Hm as [Hm|[<-|[]]]; [apply UP, l_up0, Hm|apply UP, Um].
  - intros l1 l2 E. cbn [f_up push] in E. apply snoc_split in E. destruct E as [(-> & _)|(l2' & _ & E)]; [reflexivity|]. exfalso. apply Nr. rewrite E. apply in_or_app. right. now left.
  - intros K. congruence.
  - intros _ a A. specialize (l_cov0 C a A). cbn [f_up push]. destruct (Ha a A) as [P|K].
    + apply okc_now in l_cov0. destruct l_cov0 as (K1 & K2). assert (Al : f_alive f = true) by apply A. destruct (l_pend0 a Al P) as (D & Tr). apply okc_prot; [exact Tr|exact K2|exact K1|].
      intros t Ht. assert (Hu : tag_le t (f_done f)).
      { destruct Ht as [Ht|Ht]; apply in_app_or in Ht; (destruct Ht as [Ht|[Ht|[]]]; [apply (l_up0 _ Ht)|subst m; apply Um]). }
      eapply tag_le_lt_trans; [exact Hu|exact D].
    + apply okc_snoc; [exact K|exact l_cov0].
  - intros _ l1 j g o l2 E. cbn [f_up push] in E. apply snoc_split in E. destruct E as [(_ & E & ->)|(l2' & _ & E)].
    + apply l_cov0; [exact C|]. eapply Ho. symmetry. exact E.
    + eapply l_org0; [exact C|exact E].
Qed.

Section Step.
Variable fs : nat -> fed.
Variable s : rti.
Hypothesis H : Inv fs s.
Variable i : nat.
Let f := fs i.
Let n := s i.
Hypothesis Ha : f_alive f = true.

Lemma st_conn : r_connected n = true.
Proof. destruct (r_connected n) eqn:E; [reflexivity|]. apply (l_conn _ _ _ (i_local _ _ H i)) in E. unfold f in Ha. destruct E. congruence. Qed.
Lemma st_nores : ~ In UResign (f_up f).
Proof. intros K. apply (l_up _ _ _ (i_local _ _ H i)) in K. cbn in K. unfold f in Ha. congruence. Qed.

Lemma lorig_snoc (f0 : fed) m a : lorig (push f0 m) a -> lorig f0 a \/ exists j g, m = UMsg j g a.
Proof.
  intros (l1 & j & g & l2 & E). cbn [f_up push] in E. apply snoc_split in E. destruct E as [(_ & E & _)|(l2' & _ & E)]; [right; exists j, g; congruence|]. left. exists l1, j, g, l2'. exact E.
Qed.
Ltac here := split; [|apply tag_le_refl].

Lemma inv_net t : f_cur f = None -> good_tag t -> (forall a, In a (f_queue f) -> tag_le t a) ->
  Inv (upd fs i (mkFed true (f_queue f) None (f_done f) (f_grant f) (if tag_ltb (f_promise f) t then t else f_promise f) (f_up f ++ [UNet t]) (f_rcvd f))) s.
Proof.
  intros Hc Ht Hq. set (p := if tag_ltb _ _ then _ else _).
  assert (Hp : tag_le (f_promise f) p /\ tag_le t p).
  { unfold p, tag_ltb. destruct (tag_compare (f_promise f) t <? 0) eqn:E; [apply cmp_lt0 in E; split; [apply tag_lt_le, E|apply tag_le_refl]|]. apply cmp_lt0_false in E. split; [apply tag_le_refl|exact E]. }
  set (f1 := mkFed true (f_queue f) None (f_done f) (f_grant f) p (f_up f) (f_rcvd f)).
  assert (AA : forall a, lact f1 n a -> lact f n a).
  { intros a (_ & K). split; [exact Ha|]. cbn [f_queue f_cur f_promise f_done f1] in K. destruct K as [K|[K|[(K1 & K2)|K]]]; [now left|discriminate|right; right; left; split; [eapply tag_le_trans; [apply Hp|exact K1]|exact K2]|right; right; right; exact K]. }
  pose proof (i_local _ _ H i) as L. fold f n in L.
  assert (L1 : local i f1 n).
  { destruct L. constructor; try assumption.
    - intros a A. apply l_small0, AA, A.
    - intros m Hm. specialize (l_up0 m Hm). destruct m; try exact l_up0. cbn in l_up0. congruence.
    - intros K. discriminate (eq_trans (eq_sym K) st_conn).
    - intros K a A. apply l_cov0; [exact K|apply AA, A].
    - discriminate.
    - intros a _. apply l_queue0, Ha.
    - intros g _. apply l_pend0, Ha. }
  apply (inv_fed fs s i (push f1 (UNet t)) H).
  - apply local_push; [exact L1|exact Ht|exact st_nores|exact st_conn| |discriminate]. intros a (_ & K). cbn [f_queue f_cur f_promise f_done f1] in K.
    destruct K as [K|[K|[(K1 & K2)|K]]]; [right; apply Hq, K|discriminate|right; eapply tag_le_trans; [apply Hp|exact K1]|now left].
  - intros _ a [A|A]; exists a; here; [left; apply AA, A|right]. apply lorig_snoc in A. destruct A as [A|(? & ? & E)]; [exact A|discriminate].
Qed.

Lemma inv_queue t a0 : small t -> lact f n a0 -> tag_le a0 t -> tag_lt (f_done f) t -> Inv (upd fs i (mkFed true (t :: f_queue f) (f_cur f) (f_done f) (f_grant f) (f_promise f) (f_up f) (f_rcvd f))) s.
Proof.
  intros Ht A0 L0 D. set (f1 := mkFed _ _ _ _ _ _ _ _). pose proof (i_local _ _ H i) as L. fold f n in L.
  assert (AA : forall a, lact f1 n a -> a = t \/ lact f n a).
  { intros a (_ & K). cbn [f_queue f_cur f_promise f_done f1] in K. destruct K as [[K|K]|K]; [left; auto|right; split; [exact Ha|now left]|right; split; [exact Ha|right; exact K]]. }
  apply (inv_fed fs s i f1 H).
  - destruct L. constructor; try assumption.
    + intros a A. apply AA in A. destruct A as [->|A]; [exact Ht|apply l_small0, A].
    + intros m Hm. specialize (l_up0 m Hm). destruct m; try exact l_up0. cbn in l_up0. congruence.
    + intros K. discriminate (eq_trans (eq_sym K) st_conn).
    + intros K a A. apply AA in A. destruct A as [->|A]; [eapply okc_mono; [exact L0|apply l_cov0; assumption]|apply l_cov0; assumption].
    + intros a _ [<-|K]; [exact D|apply l_queue0; assumption].
    + intros g _. apply l_pend0, Ha.
  - intros _ a [A|A]; [|exists a; here; right; exact A]. apply AA in A. destruct A as [->|A]; [exists a0; split; [left; exact A0|exact L0]|exists a; here; left; exact A].
Qed.

Lemma inv_start_tag t : f_cur f = None -> In t (f_queue f) -> (forall a, In a (f_queue f) -> tag_le t a) -> (tp_up tp i = [] \/ tag_le t (f_grant f)) ->
  Inv (upd fs i (mkFed true (filter (fun x => negb (tag_eqb t x)) (f_queue f)) (Some t) t (f_grant f) (f_promise f) (f_up f) (f_rcvd f))) s.
Proof.
  intros Hc Hin Hq Hg. set (f1 := mkFed _ _ _ _ _ _ _ _). pose proof (i_local _ _ H i) as L. fold f n in L.
  assert (D : tag_lt (f_done f) t) by (apply (l_queue _ _ _ L); assumption).
  assert (St : small t) by (apply (l_small _ _ _ L); split; [exact Ha|now left]).
  assert (AA : forall a, lact f1 n a -> lact f n a).
  { intros a (_ & K). split; [exact Ha|]. cbn [f_queue f_cur f_promise f_done f1] in K. destruct K as [K|[K|[(K1 & K2 & K3)|K]]].
    - apply filter_In in K. left. apply K.
    - injection K as <-. now left.
    - right; right; left. split; [exact K1|]. split; [eapply tag_le_lt_trans; [apply tag_lt_le, D|exact K2]|exact K3].
    - right; right; right; exact K. }
  apply (inv_fed fs s i f1 H).
  - destruct L. constructor; try assumption.
    + intros a A. apply l_small0, AA, A.
    + intros m Hm. specialize (l_up0 m Hm). destruct m; try exact l_up0; cbn [up_ok f_done f_alive f1] in *; [| |congruence]; (split; [|apply l_up0]; eapply tag_le_trans; [apply l_up0|apply tag_lt_le, D]).
    + intros K. discriminate (eq_trans (eq_sym K) st_conn).
    + intros K a A. apply l_cov0; [exact K|apply AA, A].
    + intros c E. injection E as <-. reflexivity.
    + intros a _ K. cbn [f_queue f1] in K. apply filter_In in K. destruct K as (K1 & K2). cbn [f_done f1]. apply negb_true_iff in K2. destruct (proj1 (tag_le_lt_or_eq _ _) (Hq a K1)) as [E|E]; [exact E|]. subst a. unfold tag_eqb in K2. rewrite (proj2 (cmp_eq0 t t) eq_refl) in K2. discriminate.
    + intros g _ K. split; [|apply l_pend0; assumption]. cbn [f_done f1]. unfold pend in K. cbn [f_rcvd f1] in K. destruct Hg as [Hg|Hg].
      * exfalso. apply (l_nomsg0 Hg g). rewrite <- (firstn_skipn (f_rcvd f) (r_sent n)). apply in_or_app. now right.
      * eapply tag_le_lt_trans; [exact Hg|]. destruct l_grant0 as [G|G].
        -- exfalso. rewrite G in Hg. apply (tag_lt_irrefl t). eapply tag_le_lt_trans; [exact Hg|apply small_never, St].
        -- apply in_split in G. destruct G as (x1 & x2 & G). apply (l_log0 x1 (f_grant f) (x2 ++ skipn (f_rcvd f) (r_sent n)) g); [|apply in_or_app; now right].
           transitivity (firstn (f_rcvd f) (r_sent n) ++ skipn (f_rcvd f) (r_sent n)); [symmetry; apply firstn_skipn|]. rewrite G at 1. rewrite <- app_assoc. reflexivity.
    + intros U. cbn [f_done f_grant f1]. destruct Hg as [Hg|Hg]; [contradiction|exact Hg].
    + right. exact St.
    + split; [|apply l_comp0]. cbn [f_done f1]. eapply tag_le_trans; [apply l_comp0|apply tag_lt_le, D].
  - intros _ a [A|A]; exists a; here; [left; apply AA, A|right; exact A].
Qed.

Lemma inv_send c j d : f_cur f = Some c -> has_connection tp i j d = true -> in_int64b d = true -> tmicro c < UINT_MAX -> small (delay_tag c d) -> Inv (upd fs i (push f (UMsg j (delay_tag c d) c))) s.
Proof.
  intros Hc Hcon Hd Hm Sg. pose proof (i_local _ _ H i) as L. fold f n in L. assert (A : lact f n c) by (split; [exact Ha|right; now left]). pose proof (l_small _ _ _ L c A) as Sc.
  apply (inv_fed fs s i _ H).
  - apply local_push; [exact L| |exact st_nores|exact st_conn|auto|intros ? ? ? E; injection E as _ _ <-; exact A].
    split; [exact Sc|]. split; [exact Sg|]. unfold has_connection in Hcon. apply existsb_exists in Hcon. destruct Hcon as ((k & d') & Hin & Hk). cbn [fst snd] in Hk. apply andb_true_iff in Hk. destruct Hk as (Hk & Hd').
    apply Nat.eqb_eq in Hk. subst k. apply Z.leb_le in Hd'. exists d'. split; [exact Hin|]. eapply tag_le_trans; [apply delayZ_mono_d, Hd'|].
    assert (T : ttime c + Z.max 0 d < FOREVER).
    { destruct (Z.ltb_spec d 0); [destruct Sc; lia|]. revert Sg. unfold delay_tag. replace (d <? 0) with false by lia. destruct (_ || _) eqn:B; [destruct Sc as (Sc & _); intros _; apply orb_true_iff in B; destruct B as [B|B]; [|discriminate]; apply Z.eqb_eq in B; tag_consts; lia|].
      destruct (Z.leb_spec (FOREVER - d) (ttime c)); [intros (K & _); cbn in K; lia|]. lia. }
    rewrite delay_tag_exact; [apply tag_le_refl|apply small_ok, Sc|apply in_int64b_spec, Hd|exact T|destruct Sc; tag_consts; lia|exact Hm].
  - intros _ a [K|K]; [exists a; here; left; exact K|]. apply lorig_snoc in K. destruct K as [K|(? & ? & E)]; [exists a; here; right; exact K|]. injection E as _ _ <-. exists c. here. left. exact A.
Qed.

Lemma inv_complete c ltc : f_cur f = Some c -> Inv (upd fs i (mkFed true (f_queue f) None (f_done f) (f_grant f) (f_promise f) (if ltc : bool then f_up f ++ [ULtc c] else f_up f) (f_rcvd f))) s.
Proof.
  intros Hc. pose proof (i_local _ _ H i) as L. fold f n in L. assert (Ec : c = f_done f) by (apply (l_cur _ _ _ L), Hc).
  set (f1 := mkFed true (f_queue f) None (f_done f) (f_grant f) (f_promise f) (f_up f) (f_rcvd f)).
  assert (AA : forall a, lact f1 n a -> lact f n a).
  { intros a (_ & K). split; [exact Ha|]. cbn [f_queue f_cur f_promise f_done f1] in K. destruct K as [K|[K|[K|K]]]; [now left|discriminate|right; right; now left|right; right; right; exact K]. }
  assert (L1 : local i f1 n).
  { destruct L. constructor; try assumption.
    - intros a A. apply l_small0, AA, A.
    - intros m Hm. specialize (l_up0 m Hm). destruct m; try exact l_up0. cbn in l_up0. congruence.
    - intros K. discriminate (eq_trans (eq_sym K) st_conn).
    - intros K a A. apply l_cov0; [exact K|apply AA, A].
    - discriminate.
    - intros a _. apply l_queue0, Ha.
    - intros g _. apply l_pend0, Ha. }
  destruct ltc.
  - apply (inv_fed fs s i (push f1 (ULtc c)) H).
    + apply local_push; [exact L1| |exact st_nores|exact st_conn| |discriminate].
      * split; [rewrite Ec; apply tag_le_refl|]. apply small_ok, (l_small _ _ _ L). split; [exact Ha|right; now left].
      * intros a (_ & K). cbn [f_queue f_cur f_promise f_done f1] in K. destruct K as [K|[K|[(K1 & K2 & _)|K]]]; [right; rewrite Ec; apply (l_queue _ _ _ L); assumption|discriminate|right; rewrite Ec; exact K2|now left].
    + intros _ a [A|A]; exists a; here; [left; apply AA, A|right]. apply lorig_snoc in A. destruct A as [A|(? & ? & E)]; [exact A|discriminate].
  - apply (inv_fed fs s i f1 H L1). intros _ a [A|A]; exists a; here; [left; apply AA, A|right; exact A].
Qed.

Lemma inv_resign : Inv (upd fs i (mkFed false [] None (f_done f) (f_grant f) (f_promise f) (f_up f ++ [UResign]) (f_rcvd f))) s.
Proof.
  set (f1 := mkFed false [] None (f_done f) (f_grant f) (f_promise f) (f_up f) (f_rcvd f)). pose proof (i_local _ _ H i) as L. fold f n in L.
  assert (N : forall a, ~ lact f1 n a) by (intros a (K & _); discriminate).
  assert (L1 : local i f1 n).
  { destruct L. constructor; try assumption; try discriminate.
    - intros a A. destruct (N a A).
    - intros m Hm. specialize (l_up0 m Hm). destruct m; try exact l_up0. reflexivity.
    - intros K. discriminate (eq_trans (eq_sym K) st_conn).
    - intros K a A. destruct (N a A). }
  apply (inv_fed fs s i (push f1 UResign) H).
  - apply local_push; [exact L1|reflexivity|exact st_nores|exact st_conn| |discriminate]. intros a A. destruct (N a A).
  - intros _ a [A|A]; [destruct (N a A)|]. apply lorig_snoc in A. destruct A as [A|(? & ? & E)]; [|discriminate]. exists a. here. right. exact A.
Qed.

Lemma nth_split_at {A} (l : list A) k x : nth_error l k = Some x -> skipn k l = x :: skipn (S k) l /\ firstn (S k) l = firstn k l ++ [x] /\ (S k <= length l)%nat.
Proof.
  revert k. induction l as [|y l IH]; intros k E; [destruct k; discriminate|]. destruct k as [|k]; [injection E as ->; cbn; split; [reflexivity|]; split; [reflexivity|lia]|].
  cbn [nth_error] in E. destruct (IH k E) as (E1 & E2 & E3). split; [exact E1|]. split; [change (firstn (S (S k)) (y :: l)) with (y :: firstn (S k) l); rewrite E2; reflexivity|cbn; lia].
Qed.

Lemma inv_recv m q g : nth_error (r_sent n) (f_rcvd f) = Some m -> q = (match m with MMsg t => t :: f_queue f | _ => f_queue f end) -> g = (match m with MTag t => t | _ => f_grant f end) ->
  Inv (upd fs i (mkFed true q (f_cur f) (f_done f) g (f_promise f) (f_up f) (S (f_rcvd f)))) s.
Proof.
  intros Hm -> ->. destruct (nth_split_at _ _ _ Hm) as (E1 & E2 & E3). set (f1 := mkFed _ _ _ _ _ _ _ _). pose proof (i_local _ _ H i) as L. fold f n in L.
  assert (PP : forall x, pend f1 n x -> pend f n x) by (intros x K; unfold pend in *; rewrite E1; right; exact K).
  assert (AA : forall a, lact f1 n a -> lact f n a).
  { intros a (_ & K). split; [exact Ha|]. cbn [f_queue f_cur f_promise f_done f1] in K. destruct K as [K|[K|[K|K]]]; [|right; now left|right; right; now left|right; right; right; apply PP, K].
    destruct m; try (left; exact K). destruct K as [<-|K]; [|now left]. right; right; right. unfold pend. rewrite E1. now left. }
  assert (Hin : In m (r_sent n)) by (eapply nth_error_In; exact Hm).
  apply (inv_fed fs s i f1 H).
  - destruct L. constructor; try assumption.
    + intros a A. apply l_small0, AA, A.
    + intros m' Hm'. specialize (l_up0 m' Hm'). destruct m'; try exact l_up0. cbn in l_up0. congruence.
    + intros K. discriminate (eq_trans (eq_sym K) st_conn).
    + intros K a A. apply l_cov0; [exact K|apply AA, A].
    + intros a _ K. cbn [f_queue f_done f1] in *. destruct m; try (apply l_queue0; assumption). destruct K as [<-|K]; [|apply l_queue0; assumption]. apply (l_pend0 t Ha). unfold pend. rewrite E1. now left.
    + intros x _ K. apply (l_pend0 x Ha), PP, K.
    + intros U. specialize (l_done0 U). cbn [f_done f_grant f1]. destruct m as [t|t|t|t]; try exact l_done0. destruct l_grant0 as [G|G].
      * eapply tag_le_trans; [exact l_done0|]. rewrite G. apply l_gnn0, Hin.
      * eapply tag_le_trans; [exact l_done0|]. destruct (i_order _ _ H i) as (O & _). fold n in O.
        assert (K : r_sent n = firstn (f_rcvd f) (r_sent n) ++ MTag t :: skipn (S (f_rcvd f)) (r_sent n)) by (rewrite <- E1; symmetry; apply firstn_skipn).
        specialize (O _ _ _ K _ G). cbn in O. unfold strict_node in O. destruct (tp_up tp i); [contradiction|]. apply tag_lt_le, O. reflexivity.
    + cbn [f_grant f_rcvd f1]. fold n. rewrite E2. destruct m; try (destruct l_grant0 as [G|G]; [now left|right; apply in_or_app; now left]). right. apply in_or_app. right. now left.
  - intros _ a [A|A]; exists a; here; [left; apply AA, A|right; exact A].
Qed.
End Step.

(** ** The coordinator handles a message. *)
Definition pop (f : fed) (l : list umsg) : fed := mkFed (f_alive f) (f_queue f) (f_cur f) (f_done f) (f_grant f) (f_promise f) l (f_rcvd f).
Lemma local_pop i f n n' m rest pre : local i f n -> f_up f = m :: rest -> r_connected n = true -> (pre = [] \/ exists t, pre = [URem t] /\ m = ULtc t) ->
  r_connected n' = r_connected n -> r_granted n' = r_granted n -> r_sent n' = r_sent n ->
  (r_next n' = NEVER_TAG \/ good_tag (r_next n')) -> (forall t, In t (r_transit n') -> small t) -> (forall g, tag_lt (f_done f) g -> In g (r_transit n) -> In g (r_transit n')) ->
  (tag_le (r_completed n') (f_done f) /\ tag_ok (r_completed n')) ->
  (forall a l, tag_lt a FOREVER_TAG -> okc a (r_completed n) (r_next n) (r_transit n) (m :: l) -> okc a (r_completed n') (r_next n') (r_transit n') (pre ++ l)) ->
  local i (pop f (pre ++ rest)) n'.
Proof.
  intros L E C Hpre E1 E2 E3 Hn Ht Hp Hc Hok.
  assert (PP : forall g, pend (pop f (pre ++ rest)) n' g <-> pend f n g) by (intros g; unfold pend; rewrite E3; reflexivity).
  assert (AA : forall a, lact (pop f (pre ++ rest)) n' a <-> lact f n a) by (intros a; unfold lact; rewrite PP; reflexivity).
  destruct L. constructor; rewrite ?E2, ?E3; try assumption.
  - intros a A. apply l_small0, AA, A.
  - intros m' Hm. cbn [f_up pop] in Hm. assert (U : up_ok i f m'); [|destruct m'; exact U]. apply in_app_or in Hm. destruct Hm as [Hm|Hm]; [|apply l_up0; rewrite E; now right].
    destruct Hpre as [->|(t & -> & ->)]; [destruct Hm|]. destruct Hm as [<-|[]]. apply (l_up0 (ULtc t)). rewrite E. now left.
  - intros l1 l2 K. cbn [f_up pop] in K. destruct Hpre as [->|(t & -> & ->)]; cbn [app] in K; [apply (l_resign0 (m :: l1)); rewrite E, K; reflexivity|].
    destruct l1 as [|x l1]; [discriminate|]. cbn in K. injection K as _ K. apply (l_resign0 (ULtc t :: l1)). rewrite E, K. reflexivity.
  - intros K. congruence.
  - intros _ a A. apply Hok; [apply small_forever, l_small0, AA, A|]. rewrite <- E. apply l_cov0; [exact C|apply AA, A].
  - intros _ l1 j g o l2 K. cbn [f_up pop] in K.
    assert (So : forall l, f_up f = l ++ UMsg j g o :: l2 -> tag_lt o FOREVER_TAG).
    { intros l El. assert (U : up_ok i f (UMsg j g o)) by (apply l_up0; rewrite El; apply in_or_app; right; now left). apply small_forever, U. }
    destruct Hpre as [->|(t & -> & ->)]; cbn [app] in *.
    + assert (K2 : f_up f = (m :: l1) ++ UMsg j g o :: l2) by (rewrite E, K; reflexivity). apply (Hok o l1); [eapply So, K2|]. eapply l_org0; [exact C|exact K2].
    + destruct l1 as [|x l1]; [discriminate|]. cbn in K. injection K as <- K. assert (K2 : f_up f = (ULtc t :: l1) ++ UMsg j g o :: l2) by (rewrite E, K; reflexivity).
      apply (Hok o l1); [eapply So, K2|]. eapply l_org0; [exact C|exact K2].
  - intros g A K. apply PP in K. destruct (l_pend0 g A K) as (K1 & K2). split; [exact K1|apply Hp; assumption].
Qed.
Lemma pop_orig f m rest pre a : f_up f = m :: rest -> (pre = [] \/ exists t, pre = [URem t] /\ m = ULtc t) -> lorig (pop f (pre ++ rest)) a -> lorig f a.
Proof.
  intros E Hpre (l1 & j & g & l2 & K). cbn [f_up pop] in K. destruct Hpre as [->|(t & -> & ->)]; cbn [app] in K; [exists (m :: l1), j, g, l2; rewrite E, K; reflexivity|].
  destruct l1 as [|x l1]; [discriminate|]. cbn in K. injection K as _ K. exists (ULtc t :: l1), j, g, l2. rewrite E, K. reflexivity.
Qed.

Section Take.
Variable fs : nat -> fed.
Variable s : rti.
Hypothesis H : Inv fs s.
Variable i : nat.
Variable m : umsg.
Variable rest : list umsg.
Hypothesis E : f_up (fs i) = m :: rest.
Lemma tk_conn : r_connected (s i) = true.
Proof. destruct (r_connected (s i)) eqn:C; [reflexivity|]. apply (l_conn _ _ _ (i_local _ _ H i)) in C. destruct C as (_ & C). congruence. Qed.
Lemma tk_up : up_ok i (fs i) m.
Proof. apply (l_up _ _ _ (i_local _ _ H i)). rewrite E. now left. Qed.

(** A message that changes only the sender's record. *)
Lemma inv_take pre F : (pre = [] \/ exists t, pre = [URem t] /\ m = ULtc t) ->
  r_connected (F (s i)) = r_connected (s i) -> r_granted (F (s i)) = r_granted (s i) -> r_sent (F (s i)) = r_sent (s i) -> r_ptag (F (s i)) = r_ptag (s i) -> r_delays (F (s i)) = r_delays (s i) ->
  (r_next (F (s i)) = NEVER_TAG \/ good_tag (r_next (F (s i)))) -> (forall t, In t (r_transit (F (s i))) -> small t) -> (forall g, tag_lt (f_done (fs i)) g -> In g (r_transit (s i)) -> In g (r_transit (F (s i)))) ->
  (tag_le (r_completed (F (s i))) (f_done (fs i)) /\ tag_ok (r_completed (F (s i)))) ->
  (forall a l, tag_lt a FOREVER_TAG -> okc a (r_completed (s i)) (r_next (s i)) (r_transit (s i)) (m :: l) -> okc a (r_completed (F (s i))) (r_next (F (s i))) (r_transit (F (s i))) (pre ++ l)) ->
  Inv (upd fs i (pop (fs i) (pre ++ rest))) (on s i F).
Proof.
  intros Hpre E1 E2 E3 E4 E5 Hn Ht Hp Hc Hok. pose proof tk_conn as C. apply (inv_upd fs s _ _ i H).
  - intros j n. split; [apply upd_neq, n|apply on_other; congruence].
  - rewrite upd_eq, on_same. eapply local_pop; try eassumption. apply (i_local _ _ H).
  - rewrite on_same. exact E5.
  - intros _. exact C.
  - left. rewrite on_same. exact E2.
  - rewrite on_same. eapply log_same; [apply (i_order _ _ H)| | |]; assumption.
  - intros _ a A. left. exists a. split; [|apply tag_le_refl]. destruct A as [A|A]; rewrite upd_eq in A; [left|right; eapply pop_orig; eassumption].
    rewrite on_same in A. unfold lact, pend in *. rewrite E3 in A. exact A.
Qed.
End Take.

Lemma peek_good tr : (forall t, In t tr -> small t) -> good_tag (transit_peek tr).
Proof. intros Hs0. destruct (peek_in tr) as [K|K]; [right; exact K|left; apply Hs0, K]. Qed.
Lemma min_good a b : good_tag a -> good_tag b -> good_tag (min_tag a b).
Proof. intros. unfold min_tag. destruct (_ <? 0); assumption. Qed.

Lemma inv_take_net fs s i t rest : Inv fs s -> f_up (fs i) = UNet t :: rest -> Inv (upd fs i (pop (fs i) rest)) (update_fed_next tp start (fun _ => true) s i t).
Proof.
  intros H E. set (fs' := upd _ _ _). pose proof (tk_up fs s H i _ _ E) as U. cbn in U. pose proof (i_local _ _ H i) as L. unfold update_fed_next. fold (min_tag (transit_peek (r_transit (s i))) t). set (m := min_tag _ _).
  assert (Gm : good_tag m) by (apply min_good; [apply peek_good, L|exact U]).
  assert (K : Inv fs' (on s i (set_next m))).
  { apply (inv_take fs s H i _ _ E [] (set_next m)); try reflexivity; [now left|right; exact Gm|apply L|auto|apply L|]. intros a l _ Ho. apply Ho. }
  apply update_next_P; [intros; apply inv_safe; assumption|exact K|]. intros Un.
  apply (inv_upd fs' (on s i (set_next m)) _ _ i K).
  - intros j n. split; [reflexivity|rewrite !on_other by congruence; reflexivity].
  - rewrite on_same. pose proof (i_local _ _ K i) as Li. destruct Li. constructor; try assumption. cbn [r_granted set_granted]. apply tag_never_least, good_ok, Gm.
  - rewrite on_same. reflexivity.
  - rewrite on_same. auto.
  - right. exact Un.
  - rewrite on_same. pose proof (i_order _ _ K i) as (O1 & O2 & O3). split; [exact O1|]. split; [exact O2|]. unfold strict_node. rewrite Un. discriminate.
  - intros _ a A. left. exists a. split; [|apply tag_le_refl]. destruct A as [A|A]; [left|right; exact A]. rewrite on_same in A. exact A.
Qed.

Lemma inv_take_ltc fs s i t rest : Inv fs s -> f_up (fs i) = ULtc t :: rest -> Inv (upd fs i (pop (fs i) (URem t :: rest))) (tag_complete tp start (fun _ => true) s i t).
Proof.
  intros H E. pose proof (tk_up fs s H i _ _ E) as U. cbn in U. pose proof (i_local _ _ H i) as L. apply tag_complete_P; [intros; apply inv_safe; assumption|].
  apply (inv_take fs s H i _ _ E [URem t] (set_completed t)); try reflexivity; [right; eauto|apply L|apply L|auto|exact U|]. intros a l _ Ho. cbn [okc app r_completed r_next r_transit set_completed] in *. destruct Ho as (O1 & O2 & O3). pose proof (okc_now _ _ _ _ _ O3) as (O4 & O5). auto.
Qed.
Lemma inv_take_rem fs s i t rest : Inv fs s -> f_up (fs i) = URem t :: rest -> Inv (upd fs i (pop (fs i) rest)) (on s i (fun n => set_transit (transit_remove t (r_transit n)) n)).
Proof.
  intros H E. pose proof (tk_up fs s H i _ _ E) as U. cbn in U. pose proof (i_local _ _ H i) as L.
  apply (inv_take fs s H i _ _ E [] (fun n => set_transit (transit_remove t (r_transit n)) n)); try reflexivity; [now left|apply L| | |apply L|].
  - intros x Hx. cbn [r_transit set_transit] in Hx. apply remove_in in Hx. apply (l_transit _ _ _ L), Hx.
  - intros g Hg Hin. cbn [r_transit set_transit]. apply remove_in. split; [exact Hin|]. left. eapply tag_le_lt_trans; [apply U|exact Hg].
  - intros a l _ Ho. apply Ho.
Qed.
Lemma inv_take_resign fs s i rest : Inv fs s -> f_up (fs i) = UResign :: rest -> Inv (upd fs i (pop (fs i) rest)) (notify_downstream tp start (fun _ => true) (on s i (fun n => set_next FOREVER_TAG (set_connected false n))) i).
Proof.
  intros H E. pose proof (tk_up fs s H i _ _ E) as U. cbn in U. pose proof (i_local _ _ H i) as L. apply notify_downstream_P; [intros; apply inv_safe; assumption|].
  assert (Er : rest = []) by (apply (l_resign _ _ _ L [] rest); exact E). subst rest.
  apply (inv_upd fs s _ _ i H).
  - intros j n. split; [apply upd_neq, n|apply on_other; congruence].
  - rewrite upd_eq, on_same. destruct L.
    assert (N : forall a, ~ lact (pop (fs i) []) (set_next FOREVER_TAG (set_connected false (s i))) a) by (intros a (K & _); cbn in K; congruence).
    constructor; try assumption; try discriminate.
    + intros m [].
    + intros l1 l2 K. destruct l1; discriminate.
    + intros _. split; [exact U|reflexivity].
    + right; right; reflexivity.
  - rewrite on_same. reflexivity.
  - rewrite on_same. discriminate.
  - left. rewrite on_same. reflexivity.
  - rewrite on_same. eapply log_same; [apply (i_order _ _ H)| | |]; reflexivity.
  - rewrite on_same. discriminate.
Qed.

(** A message from [i] reaches the coordinator: first it is forwarded to [j], then it leaves the channel. *)
Lemma inv_deliver fs s s' i j g o rest : Inv fs s -> f_up (fs i) = UMsg j g o :: rest -> r_connected (s j) = true ->
  (forall k, k <> j -> s' k = s k) -> r_connected (s' j) = r_connected (s j) -> r_completed (s' j) = r_completed (s j) -> r_granted (s' j) = r_granted (s j) -> r_ptag (s' j) = r_ptag (s j) ->
  r_delays (s' j) = r_delays (s j) -> r_sent (s' j) = r_sent (s j) ++ [MMsg g] -> (tag_lt (r_completed (s j)) g -> r_transit (s' j) = transit_insert g (r_transit (s j))) ->
  (r_next (s' j) = NEVER_TAG \/ good_tag (r_next (s' j))) -> tag_le (r_next (s' j)) g -> tag_le (r_next (s' j)) (r_next (s j)) -> Inv fs s'.
Proof.
  intros H E C Ho E1 E2 E3 E4 E5 E6 E7 Hn N1 N2. pose proof (tk_conn fs s H i _ _ E) as Ci. pose proof (tk_up fs s H i _ _ E) as U. cbn in U. destruct U as (So & Sg & d & Hin & Ld).
  assert (Ao : active fs s i o) by (right; exists [], j, g, rest; exact E).
  assert (Un : tp_up tp j <> []) by (intros K; rewrite K in Hin; destruct Hin).
  assert (G : tag_lt (r_granted (s j)) g).
  { eapply tag_lt_le_trans; [|exact Ld]. apply (i_safe _ _ H i [d] j o); [split; [exact Ci|apply path_one; [exact Hin|exact C]]|exact Ao|]. change (arriveZ o [d]) with (delayZ o d). apply tag_le_time in Ld. destruct Sg. lia. }
  destruct (completed_granted fs s j H Un) as (Gd & Gc).
  assert (Lc : tag_lt (r_completed (s j)) g) by (eapply tag_le_lt_trans; eassumption). specialize (E7 Lc).
  pose proof (i_local _ _ H j) as L. pose proof (l_rcvd _ _ _ L) as Rc.
  assert (PP : forall x, pend (fs j) (s' j) x -> x = g \/ pend (fs j) (s j) x).
  { intros x K. unfold pend in *. rewrite E6, skipn_snoc in K by exact Rc. apply in_app_or in K. destruct K as [K|[K|[]]]; [right; exact K|left; congruence]. }
  assert (AA : forall a, lact (fs j) (s' j) a -> a = g \/ lact (fs j) (s j) a).
  { intros a (K1 & K). destruct K as [K|[K|[K|K]]]; [right; split; [exact K1|now left]|right; split; [exact K1|right; now left]|right; split; [exact K1|right; right; now left]|].
    apply PP in K. destruct K as [->|K]; [now left|right; split; [exact K1|right; right; right; exact K]]. }
  apply (inv_upd fs s fs s' j H).
  - intros k n. split; [reflexivity|apply Ho, n].
  - destruct L. constructor; rewrite ?E1, ?E2, ?E3, ?E7; try assumption.
    + intros a A. apply AA in A. destruct A as [->|A]; [exact Sg|apply l_small0, A].
    + intros x Hx. apply insert_in in Hx. destruct Hx as [->|Hx]; [exact Sg|apply l_transit0, Hx].
    + intros _ a A. apply AA in A. destruct A as [->|A].
      * apply okc_prot; [apply insert_in; now left|exact N1|exact Lc|]. intros t Ht. eapply tag_le_lt_trans; [|exact G]. eapply tag_le_trans; [|exact Gd]. destruct Ht as [Ht|Ht]; apply l_up0 in Ht; apply Ht.
      * specialize (l_cov0 C a A). pose proof (okc_now _ _ _ _ _ l_cov0) as (_ & K). eapply okc_raise; [|eapply tag_le_trans; [exact N2|exact K]]. eapply okc_more; [apply small_forever, l_small0, A|exact l_cov0|]. intros x Hx. apply insert_in. now right.
    + intros _ l1 k g' o' l2 K. pose proof (l_org0 C _ _ _ _ _ K) as Ko. pose proof (okc_now _ _ _ _ _ Ko) as (_ & K1). eapply okc_raise; [|eapply tag_le_trans; [exact N2|exact K1]]. eapply okc_more; [|exact Ko|intros x Hx; apply insert_in; now right].
      assert (U : up_ok j (fs j) (UMsg k g' o')) by (apply l_up0; rewrite K; apply in_or_app; right; now left). apply small_forever, U.
    + intros x A K. apply PP in K. destruct K as [->|K]; [split; [eapply tag_le_lt_trans; eassumption|apply insert_in; now left]|]. destruct (l_pend0 x A K) as (K1 & K2). split; [exact K1|apply insert_in; now right].
    + rewrite E6, firstn_snoc by exact Rc. exact l_grant0.
    + rewrite E6. intros l1 t l2 g' K Hg. apply snoc_split in K. destruct K as [(-> & _)|(l2' & -> & K)]; [destruct Hg|]. apply in_app_or in Hg. destruct Hg as [Hg|[Hg|[]]]; [eapply l_log0; eassumption|]. injection Hg as <-.
      eapply tag_le_lt_trans; [|exact G]. destruct (i_order _ _ H j) as (_ & _ & O). apply O; [unfold strict_node; destruct (tp_up tp j); [contradiction|reflexivity]|]. rewrite K. apply in_or_app. right. now left.
    + intros K. contradiction.
    + rewrite E6, app_length. lia.
    + rewrite E6. intros t Ht. apply in_app_or in Ht. destruct Ht as [Ht|[Ht|[]]]; [apply l_gnn0, Ht|discriminate].
  - exact E5.
  - rewrite E1. auto.
  - left. exact E3.
  - eapply (log_snoc _ _ (MMsg g)); [apply (i_order _ _ H)|exact E6|intros m _; destruct m; exact I|split; assumption].
  - intros _ a A. destruct A as [A|A]; [|left; exists a; split; [right; exact A|apply tag_le_refl]]. apply AA in A. destruct A as [->|A]; [|left; exists a; split; [left; exact A|apply tag_le_refl]].
    right. exists i, d, o. auto.
Qed.

Lemma inv_drop fs s i j g o rest : Inv fs s -> f_up (fs i) = UMsg j g o :: rest -> Inv (upd fs i (pop (fs i) rest)) s.
Proof.
  intros H E. pose proof (i_local _ _ H i) as L. apply inv_fed; [exact H| |].
  - eapply (local_pop i (fs i) (s i) (s i) _ rest []); [exact L|exact E|eapply tk_conn; eassumption|now left|reflexivity|reflexivity|reflexivity|apply L|apply L|auto|apply L|]. intros a l _ Ho. apply Ho.
  - intros _ a [A|A]; exists a; (split; [|apply tag_le_refl]); [left; exact A|right]. eapply (pop_orig (fs i) _ rest []); [exact E|now left|exact A].
Qed.

Lemma inv_take_msg fs s s' i j g o rest : Inv fs s -> f_up (fs i) = UMsg j g o :: rest -> forward tp start (fun _ => true) s j g = Some s' -> Inv (upd fs i (pop (fs i) rest)) s'.
Proof.
  intros H E F. unfold forward in F. destruct (r_connected (s j)) eqn:C; cbn [negb] in F; [|injection F as <-; eapply inv_drop; eassumption]. injection F as F.
  pose proof (tk_up fs s H i _ _ E) as U. cbn in U. destruct U as (So & Sg & _). pose proof (i_local _ _ H j) as L.
  set (s2 := if tag_compare (r_completed (on s j (add_sent (MMsg g)) j)) g <? 0 then on (on s j (add_sent (MMsg g))) j (fun n => set_transit (transit_insert g (r_transit n)) n) else on s j (add_sent (MMsg g))) in *.
  assert (Q : (forall k, k <> j -> s2 k = s k) /\ r_connected (s2 j) = r_connected (s j) /\ r_completed (s2 j) = r_completed (s j) /\ r_granted (s2 j) = r_granted (s j) /\ r_ptag (s2 j) = r_ptag (s j) /\
    r_delays (s2 j) = r_delays (s j) /\ r_sent (s2 j) = r_sent (s j) ++ [MMsg g] /\ (tag_lt (r_completed (s j)) g -> r_transit (s2 j) = transit_insert g (r_transit (s j))) /\ r_next (s2 j) = r_next (s j) /\
    (forall t, In t (r_transit (s2 j)) -> small t)).
  { unfold s2. rewrite on_same. cbn [r_completed add_sent]. destruct (tag_compare (r_completed (s j)) g <? 0) eqn:T.
    - rewrite !on_same. split; [intros k n; rewrite !on_other by congruence; reflexivity|]. do 8 (split; [reflexivity|]). cbn. intros t Ht. apply insert_in in Ht. destruct Ht as [->|Ht]; [exact Sg|apply (l_transit _ _ _ L), Ht].
    - rewrite !on_same. split; [intros k n; rewrite !on_other by congruence; reflexivity|]. do 6 (split; [reflexivity|]). split; [intros K; apply cmp_lt0 in K; congruence|]. split; [reflexivity|]. cbn. apply L. }
  clearbody s2. destruct Q as (Q0 & Q1 & Q2 & Q3 & Q4 & Q5 & Q6 & Q7 & Q8 & Q9). destruct (tag_compare g (r_next (s2 j)) <? 0) eqn:T; subst s'.
  - apply cmp_lt0 in T. unfold update_fed_next. fold (min_tag (transit_peek (r_transit (s2 j))) g). set (m := min_tag _ _).
    assert (Mg : tag_le m g) by apply (proj2 (min_tag_le _ _)).
    apply update_next_P; [intros; apply inv_safe; assumption| |].
    + apply (inv_drop fs _ i j g o rest); [|exact E]. apply (inv_deliver fs s _ i j g o rest H E C); try (rewrite on_same; assumption).
      * intros k n. rewrite on_other by congruence. apply Q0, n.
      * rewrite on_same. right. apply min_good; [apply peek_good, Q9|left; exact Sg].
      * rewrite on_same, <- Q8. eapply tag_le_trans; [exact Mg|apply tag_lt_le, T].
    + intros K. exfalso. pose proof (tk_up fs s H i _ _ E) as U. cbn in U. destruct U as (_ & _ & d & Hin & _). rewrite K in Hin. destruct Hin.
  - apply cmp_lt0_false in T. apply (inv_drop fs _ i j g o rest); [|exact E]. apply (inv_deliver fs s _ i j g o rest H E C); try assumption; rewrite Q8 in *; [apply L|apply tag_le_refl].
Qed.

(** ** Every execution *)
Lemma inv_init : Inv (fun _ => init_fed start) init_rti.
Proof.
  assert (Ss : small (mkTag start 0)) by (destruct Htp; split; cbn [ttime tmicro]; tag_consts; lia).
  constructor.
  - intros i. assert (AA : forall a, lact (init_fed start) init_node a -> small a).
    { intros a (_ & [K|[K|[(_ & _ & K)|K]]]); [destruct K|discriminate|exact K|]. unfold pend in K. cbn in K. destruct K. }
    constructor; cbn; try discriminate.
    + exact AA.
    + intros m [].
    + intros l1 l2 K. destruct l1; discriminate.
    + now left.
    + intros t [].
    + intros _ a A. apply AA in A. split; [apply small_never, A|]. split; [apply tag_lt_le, small_never, A|exact I].
    + intros _ l1 j g o l2 K. destruct l1; discriminate.
    + intros a _ [].
    + intros g _ [].
    + intros _. apply tag_le_refl.
    + now left.
    + now left.
    + split; [apply tag_le_refl|tag_consts; lia].
    + intros l1 t l2 g K. destruct l1; discriminate.
    + intros _ g [].
    + lia.
    + apply tag_le_refl.
    + intros t [].
  - intros k ds j a P A T. assert (small a) as Sa.
    { destruct A as [(_ & [K|[K|[(_ & _ & K)|K]]])|(l1 & ? & ? & ? & K)]; [destruct K|discriminate|exact K|unfold pend in K; cbn in K; destruct K|destruct l1; discriminate]. }
    eapply tag_lt_le_trans; [apply small_never, Sa|]. rewrite arriveZ_exact in *. cbn [ttime] in T. pose proof (path_time_nonneg ds). pose proof (path_micro_bound ds). destruct (Z.eqb_spec (path_time ds) 0); destruct Sa; tg; lia.
  - intros e c K. discriminate.
  - apply order_init.
Qed.

Lemma inv_step y o y' : Inv (y_fed y) (y_rti y) -> sys_step tp start y o = Some y' -> Inv (y_fed y') (y_rti y').
Proof.
  intros H K. destruct o as [i t|i t|i t|i t|i j d|i ltc|i|i|i]; cbn [sys_step] in K.
  - destruct (_ && _) eqn:B in K; [|discriminate]. injection K as <-. cbn [y_fed y_rti set_fed]. rewrite !andb_true_iff in B. destruct B as (((B1 & B2) & B3) & B4).
    apply inv_net; [exact H|exact B1|destruct (f_cur (y_fed y i)); [discriminate|reflexivity]| |].
    + apply orb_true_iff in B3. destruct B3 as [B3|B3]; [left; apply smallb_spec, B3|right; apply cmp_eq0, B3].
    + intros a Ha. rewrite forallb_forall in B4. apply cmp_le0, (B4 a Ha).
  - destruct (_ && _) eqn:B in K; [|discriminate]. injection K as <-. cbn [y_fed y_rti set_fed]. rewrite !andb_true_iff in B. destruct B as (((B1 & B2) & B3) & B4). apply cmp_le0 in B3. apply cmp_lt0 in B4. apply smallb_spec in B2.
    apply (inv_queue (y_fed y) (y_rti y) H i B1 t t); [exact B2| |apply tag_le_refl|exact B4]. split; [exact B1|right; right; left; auto].
  - destruct (_ && _) eqn:B in K; [|discriminate]. injection K as <-. cbn [y_fed y_rti set_fed]. rewrite !andb_true_iff in B. destruct B as ((((B1 & B2) & B3) & B4) & B5).
    apply inv_start_tag; [exact H|exact B1|destruct (f_cur (y_fed y i)); [discriminate|reflexivity]| | |].
    + apply existsb_exists in B3. destruct B3 as (x & Hx & Ex). apply cmp_eq0 in Ex. subst x. exact Hx.
    + intros a Ha. rewrite forallb_forall in B4. apply cmp_le0, (B4 a Ha).
    + destruct (tp_up tp i); [now left|right; apply cmp_le0, B5].
  - destruct (f_cur (y_fed y i)) as [c|] eqn:Ec in K; [|discriminate]. destruct (_ && _) eqn:B in K; [|discriminate]. injection K as <-. cbn [y_fed y_rti set_fed]. rewrite !andb_true_iff in B. destruct B as ((B1 & B2) & B3). apply smallb_spec in B2. apply cmp_lt0 in B3.
    rewrite <- Ec. apply (inv_queue (y_fed y) (y_rti y) H i B1 t c); [exact B2|split; [exact B1|right; left; exact Ec]|apply tag_lt_le, B3|]. rewrite <- (l_cur _ _ _ (i_local _ _ H i) c Ec). exact B3.
  - destruct (f_cur (y_fed y i)) as [c|] eqn:Ec in K; [|discriminate]. destruct (_ && _) eqn:B in K; [|discriminate]. injection K as <-. cbn [y_fed y_rti set_fed]. rewrite !andb_true_iff in B. destruct B as ((((B1 & B2) & B3) & B4) & B5).
    apply inv_send; [exact H|exact B1|exact Ec|exact B2|exact B3|apply Z.ltb_lt, B4|apply smallb_spec, B5].
  - destruct (f_cur (y_fed y i)) as [c|] eqn:Ec in K; [|discriminate]. destruct (f_alive (y_fed y i)) eqn:B in K; [|discriminate]. injection K as <-. cbn [y_fed y_rti set_fed]. apply inv_complete; [exact H|exact B|exact Ec].
  - destruct (f_alive (y_fed y i)) eqn:B in K; [|discriminate]. injection K as <-. cbn [y_fed y_rti set_fed]. apply inv_resign; [exact H|exact B].
  - destruct (f_alive (y_fed y i)) eqn:B in K; [|discriminate]. destruct (nth_error (r_sent (y_rti y i)) (f_rcvd (y_fed y i))) as [m|] eqn:En; [|discriminate].
    destruct m; injection K as <-; cbn [y_fed y_rti set_fed]; (eapply inv_recv; [exact H|exact B|exact En|reflexivity|reflexivity]).
  - destruct (f_up (y_fed y i)) as [|m rest] eqn:Eu in K; [discriminate|]. pose proof (tk_conn _ _ H i _ _ Eu) as C.
    destruct m as [t|t|t|j g o|]; cbn [rti_step] in K; rewrite ?C in K.
    + injection K as <-. cbn [y_fed y_rti]. apply inv_take_net; [exact H|exact Eu].
    + injection K as <-. cbn [y_fed y_rti]. apply inv_take_ltc; [exact H|exact Eu].
    + injection K as <-. cbn [y_fed y_rti]. apply inv_take_rem; [exact H|exact Eu].
    + destruct (forward _ _ _ _ _ _) as [s'|] eqn:F in K; [|discriminate]. injection K as <-. cbn [y_fed y_rti]. eapply inv_take_msg; [exact H|exact Eu|exact F].
    + injection K as <-. cbn [y_fed y_rti]. apply inv_take_resign; [exact H|exact Eu].
Qed.
Lemma inv_run l : forall y y', Inv (y_fed y) (y_rti y) -> sys_run tp start y l = Some y' -> Inv (y_fed y') (y_rti y').
Proof.
  induction l as [|o l IH]; intros y y' H K; cbn [sys_run] in K; [injection K as <-; exact H|]. destruct (sys_step tp start y o) as [y1|] eqn:E1; [|discriminate]. eapply IH; [eapply inv_step; eassumption|exact K].
Qed.
End Fed.
