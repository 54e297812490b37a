(** Proofs about federations with cycles without delay (C77). *)
From Verif Require Import Base Tag TagSpec TagProofs Pqueue PqueueProofs RtiDelays RtiDelaysSpec RtiDelaysProofs Rti RtiSpec RtiProofs Federation FederationSpec FederationProofs Provisional ProvisionalSpec.
From Verif Require PortStatus PortStatusSpec PortStatusProofs.
From Coq Require Import Arith.
Module PS := PortStatus.
Module PSP := PortStatusProofs.
Open Scope Z_scope.

(** ** Tags and delays *)
Lemma delayZ_lt a b d : tag_lt a b -> (d < 0 \/ d = 0) -> tag_lt (delayZ a d) (delayZ b d).
Proof. intros H D. unfold delayZ. destruct (Z.ltb_spec d 0); [exact H|]. destruct (Z.eqb_spec d 0); [tg; lia|lia]. Qed.
Lemma delayZ_after a d : 0 <= d -> tag_lt a (delayZ a d).
Proof. intros H. unfold delayZ. destruct (Z.ltb_spec d 0); [lia|]. destruct (Z.eqb_spec d 0); tg; lia. Qed.
Lemma delayZ_le a d : tag_le a (delayZ a d).
Proof. unfold delayZ. destruct (Z.ltb_spec d 0); [apply tag_le_refl|]. destruct (Z.eqb_spec d 0); tg; lia. Qed.
Lemma delay_tag_leZ x a d : tag_le x a -> 0 <= tmicro x -> ttime (delayZ a d) < FOREVER -> tag_le (delay_tag x d) (delayZ a d).
Proof.
  intros H M T. rewrite delayZ_time in T. unfold delay_tag. destruct (_ || _) eqn:B; [eapply tag_le_trans; [exact H|apply delayZ_le]|]. apply orb_false_iff in B. destruct B as (B1 & B2). apply Z.eqb_neq in B1. apply Z.ltb_ge in B2.
  destruct (Z.leb_spec (FOREVER - d) (ttime x)) as [K|K]; [exfalso; tg; lia|]. unfold delayZ. replace (d <? 0) with false by lia. destruct (Z.eqb_spec d 0) as [D0|D0]; [|tg; lia].
  assert (K2 : (tmicro x + 1) mod two32 <= tmicro x + 1) by (apply Z.mod_le; [lia|reflexivity]). tg. lia.
Qed.
Lemma delay_strict_cycle c d : d = NEVER \/ d = 0 -> delay_strict c d = delay_tag c d.
Proof. intros [-> | ->]; unfold delay_strict; cbn [Z.eqb negb andb]; rewrite ?Z.eqb_refl; cbn [negb andb]; rewrite ?andb_false_r; reflexivity. Qed.
Lemma delay_tag_ok c d : tag_ok c -> in_int64 d -> ttime c + Z.max 0 d < FOREVER \/ True -> tag_ok (delay_tag c d).
Proof.
  intros Hc Hd _. unfold delay_tag. destruct (_ || _) eqn:B; [exact Hc|]. apply orb_false_iff in B. destruct B as (B1 & B2). apply Z.eqb_neq in B1. apply Z.ltb_ge in B2. destruct (Z.leb_spec (FOREVER - d) (ttime c)); [tag_consts; lia|].
  destruct (Z.eqb_spec d 0).
  - destruct Hc as (H1 & H2). split; [exact H1|]. cbn [tmicro]. pose proof (Z.mod_pos_bound (tmicro c + 1) two32). unfold in_uint32, UINT_MAX, two32 in *. lia.
  - destruct Hc as (H1 & H2). tag_consts. lia.
Qed.
Lemma delay_strict_ok c d : tag_ok c -> in_int64 d -> tag_ok (delay_strict c d).
Proof.
  intros Hc Hd. pose proof (delay_tag_ok c d Hc Hd (or_intror Logic.I)) as K. unfold delay_strict. destruct (_ && _) eqn:B; [|exact K].
  rewrite !andb_true_iff, !negb_true_iff, !Z.eqb_neq in B. destruct K as (K1 & K2). destruct B as (((B1 & B2) & B3) & B4). tag_consts. lia.
Qed.

(** ** The status of the inputs *)
Definition strip (p : PS.port) : PS.port := PS.set_known p NEVER_TAG.
Definition knownp (s : PS.fed) (p : nat) : tag := match nth_error (PS.ports s) p with Some q => PS.known q | None => NEVER_TAG end.

Lemma strip_replace l : forall i p t, nth_error l i = Some p -> map strip (PS.replace l i (PS.set_known p t)) = map strip l.
Proof.
  induction l as [|q l IH]; intros i p t E; [destruct i; discriminate|]. destruct i as [|i]; cbn [nth_error PS.replace map] in *; [injection E as ->; reflexivity|]. f_equal. apply IH, E.
Qed.
Lemma ps_update s t i : nth_error (PS.ports s) i <> None -> exists s', PS.update_port false 0 s t i = Some s'.
Proof. intros H. unfold PS.update_port. destruct (nth_error (PS.ports s) i); [|congruence]. destruct (0 <=? _); eexists; reflexivity. Qed.
Lemma ps_update_spec start s t i s' : PS.update_port false start s t i = Some s' ->
  PS.cur s' = PS.cur s /\ PS.last_grant s' = PS.last_grant s /\ PS.provisional s' = PS.provisional s /\ map strip (PS.ports s') = map strip (PS.ports s) /\
  (forall j, j <> i -> knownp s' j = knownp s j) /\ (tag_le (PS.cur s) t -> knownp s i <> t -> knownp s' i = t \/ knownp s' i = knownp s i).
Proof.
  unfold PS.update_port. destruct (nth_error (PS.ports s) i) as [p|] eqn:En; [|discriminate]. cbn zeta. set (t1 := if tag_compare t (PS.cur s) <? 0 then PS.cur s else t). set (t2 := if tag_compare t1 (PS.known p) =? 0 then _ else t1).
  intros E. destruct (0 <=? tag_compare t1 (PS.known p)) eqn:C.
  - assert (E2 : s' = PS.update_max_level false start (PS.set_ports s (PS.replace (PS.ports s) i (PS.set_known p t2))) (PS.last_grant s) (PS.provisional s)) by congruence. subst s'. cbn [PS.update_max_level PS.set_mlaa PS.set_ports PS.cur PS.last_grant PS.provisional PS.ports].
    do 3 (split; [reflexivity|]). split; [apply strip_replace, En|]. split.
    + intros j n. unfold knownp. cbn [PS.update_max_level PS.set_mlaa PS.set_ports PS.ports]. rewrite PSP.nth_replace. destruct (Nat.eqb_spec i j) as [Ej|_]; [congruence|reflexivity].
    + intros Hc Hk. left. unfold knownp in *. cbn [PS.update_max_level PS.set_mlaa PS.set_ports PS.ports]. rewrite PSP.nth_replace, Nat.eqb_refl, En in *. cbn [PS.known PS.set_known].
      assert (T1 : t1 = t) by (unfold t1; apply cmp_lt0_false in Hc; rewrite Hc; reflexivity). unfold t2. rewrite T1. destruct (tag_compare t (PS.known p) =? 0) eqn:K; [|reflexivity]. apply cmp_eq0 in K. congruence.
  - assert (E2 : s' = s) by congruence. subst s'. do 4 (split; [reflexivity|]). split; [reflexivity|]. intros _ _. right. reflexivity.
Qed.
Lemma ps_update_some start s t i : nth_error (PS.ports s) i <> None -> PS.update_port false start s t i <> None.
Proof. intros H. unfold PS.update_port. destruct (nth_error (PS.ports s) i); [|congruence]. destruct (0 <=? _); discriminate. Qed.
Lemma ps_all_spec start s t : let s' := PS.update_all false start s t in
  PS.cur s' = PS.cur s /\ PS.last_grant s' = PS.last_grant s /\ PS.provisional s' = PS.provisional s /\ map strip (PS.ports s') = map strip (PS.ports s) /\ (forall j, knownp s' j = t \/ knownp s' j = knownp s j).
Proof.
  intros s'. set (l := map (fun p => if 0 <=? tag_compare t (PS.known p) then PS.set_known p t else p) (PS.ports s)).
  assert (E : PS.cur s' = PS.cur s /\ PS.last_grant s' = PS.last_grant s /\ PS.provisional s' = PS.provisional s /\ PS.ports s' = l).
  { unfold s', PS.update_all. cbn zeta. destruct (existsb _ _); repeat split. }
  destruct E as (E1 & E2 & E3 & E4). do 3 (split; [assumption|]). split.
  - rewrite E4. unfold l. rewrite map_map. apply map_ext. intros p. destruct (0 <=? _); reflexivity.
  - intros j. unfold knownp. rewrite E4. unfold l. rewrite nth_error_map. destruct (nth_error (PS.ports s) j) as [p|]; [|right; reflexivity]. cbn [option_map]. destruct (0 <=? _); [left|right]; reflexivity.
Qed.
Lemma ps_tag_spec start s t : exists s', PS.step false start s (PS.OTag t) = Some s' /\ PS.cur s' = PS.cur s /\ map strip (PS.ports s') = map strip (PS.ports s) /\ (forall j, knownp s' j = t \/ knownp s' j = knownp s j) /\
  ((PS.last_grant s' = t /\ PS.provisional s' = false) \/ (PS.last_grant s' = PS.last_grant s /\ PS.provisional s' = PS.provisional s /\ tag_lt t (PS.last_grant s))).
Proof.
  cbn [PS.step]. cbn zeta. destruct (ps_all_spec start s t) as (E1 & E2 & E3 & E4 & E5). set (s1 := PS.update_all false start s t) in *. destruct (0 <=? tag_compare t (PS.last_grant s1)) eqn:C.
  - eexists. split; [reflexivity|]. cbn [PS.cur PS.ports PS.last_grant PS.provisional]. split; [exact E1|]. split; [exact E4|]. split; [exact E5|]. left. split; reflexivity.
  - exists s1. split; [reflexivity|]. split; [exact E1|]. split; [exact E4|]. split; [exact E5|]. right. split; [exact E2|]. split; [exact E3|]. rewrite <- E2. apply tag_not_le. intros K. apply cmp_ge0 in K. congruence.
Qed.
Lemma ps_ptag_spec start s t s' : PS.step false start s (PS.OPtag t) = Some s' -> PS.cur s' = PS.cur s /\ PS.ports s' = PS.ports s /\ PS.last_grant s' = t /\ PS.provisional s' = true.
Proof. cbn [PS.step]. destruct (_ || _); [discriminate|]. intros E. assert (E2 : s' = PS.update_max_level false start (PS.mkFed (PS.ports s) (PS.cur s) t true (PS.mlaa s)) t true) by congruence. subst s'. repeat split. Qed.
Lemma strip_nth l l' p q : map strip l' = map strip l -> nth_error l p = Some q -> exists q', nth_error l' p = Some q' /\ strip q' = strip q.
Proof.
  intros E En. assert (K : nth_error (map strip l') p = Some (strip q)) by (rewrite E, nth_error_map, En; reflexivity). rewrite nth_error_map in K. destruct (nth_error l' p) as [q'|]; [|discriminate]. exists q'. split; [reflexivity|]. cbn in K. congruence.
Qed.
Lemma strip_eq q q' : strip q' = strip q -> PS.physical q' = PS.physical q /\ PS.level q' = PS.level q /\ PS.delay q' = PS.delay q /\ PS.in_cycle q' = PS.in_cycle q /\ PS.source q' = PS.source q.
Proof. unfold strip, PS.set_known. intros E. injection E as E1 E2 E3 E4 E5. auto. Qed.

(** ** What is on the way to the coordinator, as in Federation.v. *)
Definition erase (m : zmsg) : list umsg :=
  match m with ZNet t => [UNet t] | ZLtc t => [ULtc t] | ZRem t => [URem t] | ZMsg j _ t o => [UMsg j t o] | ZAbsent _ _ _ _ => [] | ZResign => [UResign] end.
Definition er (l : list zmsg) : list umsg := flat_map erase l.
Lemma er_app l1 l2 : er (l1 ++ l2) = er l1 ++ er l2.
Proof. apply flat_map_app. Qed.
Lemma er_in m l : In m l -> forall u, In u (erase m) -> In u (er l).
Proof. intros H u Hu. apply in_flat_map. exists m. auto. Qed.
Lemma er_ltc l t : In (ULtc t) (er l) -> In (ZLtc t) l.
Proof. intros H. apply in_flat_map in H. destruct H as (m & H1 & H2). destruct m; cbn in H2; repeat (destruct H2 as [H2|H2]; [try discriminate|]); try contradiction; try (injection H2 as <-; exact H1). Qed.
Lemma er_rem l t : In (URem t) (er l) -> In (ZRem t) l.
Proof. intros H. apply in_flat_map in H. destruct H as (m & H1 & H2). destruct m; cbn in H2; repeat (destruct H2 as [H2|H2]; [try discriminate|]); try contradiction; try (injection H2 as <-; exact H1). Qed.

(** Messages and absences, with their port and the sender's tag. *)
Definition zann (m : zmsg) : option (nat * nat * tag) := match m with ZMsg j p _ o | ZAbsent j p _ o => Some (j, p, o) | _ => None end.

(** ** What is on the way to a federate *)
Definition is_ann (m : rmsg) : bool := match m with MMsg _ | MAbsent _ => true | _ => false end.
Definition nann (l : list rmsg) : nat := length (filter is_ann l).
Fixpoint attach (l : list rmsg) (ps : list nat) : list (rmsg * nat) :=
  match l with
  | [] => []
  | m :: l => if is_ann m then match ps with [] => [] | p :: ps => (m, p) :: attach l ps end else (m, O) :: attach l ps
  end.
Lemma attach_app l : forall ps l' ps', length ps = nann l -> attach (l ++ l') (ps ++ ps') = attach l ps ++ attach l' ps'.
Proof.
  induction l as [|m l IH]; intros ps l' ps' E; unfold nann in E; cbn [filter app attach] in *; [destruct ps; [reflexivity|discriminate]|]. destruct (is_ann m).
  - destruct ps as [|p ps]; [discriminate|]. cbn [length] in E. cbn [app]. f_equal. apply IH. unfold nann. lia.
  - cbn [app]. f_equal. apply IH. exact E.
Qed.
Lemma nann_app l l' : nann (l ++ l') = (nann l + nann l')%nat.
Proof. unfold nann. rewrite filter_app, app_length. reflexivity. Qed.
Lemma attach_in l : forall ps m p, In (m, p) (attach l ps) -> In m l.
Proof.
  induction l as [|x l IH]; intros ps m p H; [destruct H|]. cbn [attach] in H. destruct (is_ann x); [destruct ps as [|p0 ps]; [destruct H|]|]; (destruct H as [H|H]; [injection H as <- _; now left|right; eapply IH; exact H]).
Qed.
Definition pl (f : zfed) (n : rnode) : list (rmsg * nat) := attach (skipn (z_rcvd f) (r_sent n)) (z_ports f).

(** ** Lists *)
Lemma skipn_end {A} k (l : list A) m : (k <= length l)%nat -> skipn k (l ++ [m]) = skipn k l ++ [m].
Proof. intros H. rewrite skipn_app. replace (k - length l)%nat with 0%nat by lia. reflexivity. Qed.
Lemma firstn_end {A} k (l : list A) m : (k <= length l)%nat -> firstn k (l ++ [m]) = firstn k l.
Proof. intros H. rewrite firstn_app. replace (k - length l)%nat with 0%nat by lia. apply app_nil_r. Qed.
Lemma end_split {A} (l l1 l2 : list A) m x : l ++ [m] = l1 ++ x :: l2 -> (l2 = [] /\ x = m /\ l1 = l) \/ exists l2', l2 = l2' ++ [m] /\ l = l1 ++ x :: l2'.
Proof.
  intros E. destruct l2 as [|y l2] using rev_ind.
  - apply app_inj_tail in E. left. destruct E as (-> & ->). auto.
  - rewrite app_comm_cons, app_assoc in E. apply app_inj_tail in E. destruct E as (-> & ->). right. eauto.
Qed.
Lemma nth_at {A} (l : list A) k x : nth_error l k = Some x -> skipn k l = x :: skipn (S k) l /\ firstn (S k) l = firstn k l ++ [x] /\ (S k <= length l)%nat.
Proof.
  revert k. induction l as [|y l IH]; intros k E; [destruct k; discriminate|]. destruct k as [|k]; [injection E as ->; cbn; split; [reflexivity|]; split; [reflexivity|lia]|].
  cbn [nth_error] in E. destruct (IH k E) as (E1 & E2 & E3). split; [exact E1|]. split; [change (firstn (S (S k)) (y :: l)) with (y :: firstn (S k) l); rewrite E2; reflexivity|cbn; lia].
Qed.
Lemma tag_lt_neq a b : tag_lt a b -> a <> b.
Proof. intros H ->. exact (tag_lt_irrefl _ H). Qed.
Lemma tag_lt_not a b : tag_lt a b -> tag_le b a -> False.
Proof. intros H K. apply (tag_lt_irrefl a). eapply tag_lt_le_trans; eassumption. Qed.

Section Zero.
Variable tp : topo.
Variable start : Z.
Variable pt : nat -> list PS.port.
Variable index : nat -> nat -> Z.
Hypothesis Htp : topo_ok tp.
Hypothesis Hrange : forall i, (tp_n tp <= i)%nat -> tp_up tp i = [].
Hypothesis Hs : 0 <= start < FOREVER.
Hypothesis Hw : wired tp pt index.
Notation small := (small tp start).
Notation good_tag := (good_tag tp start).

Definition done (f : zfed) : tag := if z_started f then zcur f else NEVER_TAG.
Definition grant (f : zfed) : tag := PS.last_grant (z_ps f).
Definition prov (f : zfed) : bool := PS.provisional (z_ps f).
Definition ic (j p : nat) : bool := match nth_error (pt j) p with Some q => PS.in_cycle q | None => false end.

Definition zlact (f : zfed) (n : rnode) (a : tag) : Prop :=
  z_alive f = true /\ (In a (z_queue f) \/ (z_busy f = true /\ z_real f = true /\ a = zcur f) \/ (tag_le (z_promise f) a /\ tag_lt (done f) a /\ small a) \/ exists p, In (MMsg a, p) (pl f n)).
Definition before (j : nat) (x : rmsg * nat) (a : tag) (p : nat) : Prop :=
  match fst x with
  | MTag t => tag_lt t a
  | MPtag t => tag_le t a /\ (ic j p = false -> tag_lt t a)
  | MMsg g | MAbsent g => snd x = p -> ic j p = true -> tag_lt g a
  end.
Definition fitF (j : nat) (f : zfed) (p : nat) (a : tag) : Prop :=
  tag_le (grant f) a /\ (grant f = a -> prov f = true /\ ic j p = true) /\ (z_busy f = false -> tag_lt (done f) a) /\ (ic j p = true -> tag_lt (knownp (z_ps f) p) a).
Definition fitR (j : nat) (n : rnode) (p : nat) (a : tag) : Prop :=
  tag_lt (r_granted n) a /\ tag_le (r_ptag n) a /\ (ic j p = false -> tag_lt (r_ptag n) a).
Definition ltc_ok (f : zfed) (t : tag) : Prop := tag_ok t /\ tag_le t (done f) /\ (z_busy f = true -> tag_lt t (zcur f)).

(** A message with tag [a] to port [p] of [j] may still be forwarded. *)
Inductive reach (ann : nat -> nat -> tag) (fs : nat -> zfed) (s : rti) : nat -> nat -> tag -> Prop :=
| R_msg k j p a o : r_connected (s k) = true -> r_connected (s j) = true -> In (ZMsg j p a o) (z_up (fs k)) -> reach ann fs s j p a
| R_direct j p q a0 a' : r_connected (s (PS.source q)) = true -> r_connected (s j) = true -> zlact (fs (PS.source q)) (s (PS.source q)) a0 -> nth_error (pt j) p = Some q ->
    tag_le a0 a' -> tag_lt (ann j p) a' -> ttime (delayZ a' (PS.delay q)) < FOREVER -> reach ann fs s j p (delayZ a' (PS.delay q))
| R_hop j p q p' a0 a' : r_connected (s (PS.source q)) = true -> r_connected (s j) = true -> reach ann fs s (PS.source q) p' a0 -> nth_error (pt j) p = Some q ->
    tag_le a0 a' -> tag_lt (ann j p) a' -> ttime (delayZ a' (PS.delay q)) < FOREVER -> reach ann fs s j p (delayZ a' (PS.delay q)).

Definition up_ok (ann : nat -> nat -> tag) (i : nat) (f : zfed) (m : zmsg) : Prop :=
  match m with
  | ZNet t => good_tag t
  | ZLtc t | ZRem t => ltc_ok f t
  | ZMsg j p g o => small o /\ small g /\ tag_le o (ann j p) /\ exists q, nth_error (pt j) p = Some q /\ PS.source q = i /\ g = delayZ o (PS.delay q)
  | ZAbsent j p g o => tag_ok g /\ tag_le o (ann j p) /\ exists q, nth_error (pt j) p = Some q /\ PS.source q = i /\ (PS.in_cycle q = true -> g = delayZ o (PS.delay q))
  | ZResign => z_alive f = false
  end.

Record zlocal (ann : nat -> nat -> tag) (i : nat) (f : zfed) (n : rnode) : Prop := {
  l_fail : z_failed f = false;
  l_small : forall a, zlact f n a -> small a;
  l_up : forall m, In m (z_up f) -> up_ok ann i f m;
  l_chan : forall l1 m l2 m' j p o o', z_up f = l1 ++ m :: l2 -> In m' l2 -> zann m = Some (j, p, o) -> zann m' = Some (j, p, o') -> tag_lt o o';
  l_resign : forall l1 l2, z_up f = l1 ++ ZResign :: l2 -> l2 = [];
  l_conn : r_connected n = false -> z_alive f = false /\ z_up f = [];
  l_next : r_next n = NEVER_TAG \/ good_tag (r_next n);
  l_transit : forall t, In t (r_transit n) -> small t;
  l_cov : r_connected n = true -> forall a, zlact f n a -> okc a (r_completed n) (r_next n) (r_transit n) (er (z_up f));
  l_org : r_connected n = true -> forall l1 j p g o l2, z_up f = l1 ++ ZMsg j p g o :: l2 -> okc o (r_completed n) (r_next n) (r_transit n) (er l1);
  l_busy : z_busy f = true -> z_started f = true;
  l_queue : forall a, In a (z_queue f) -> tag_lt (done f) a;
  l_dummy : forall a, In a (z_dummy f) -> tag_lt (done f) a /\ small a;
  l_cur : small (zcur f) /\ (z_started f = false -> zcur f = mkTag start 0);
  l_done : tp_up tp i <> [] -> z_started f = true -> tag_le (zcur f) (grant f);
  l_grant : (grant f = NEVER_TAG /\ prov f = false) \/ (In (MTag (grant f)) (firstn (z_rcvd f) (r_sent n)) /\ prov f = false) \/ (In (MPtag (grant f)) (firstn (z_rcvd f) (r_sent n)) /\ prov f = true);
  l_comp : ltc_ok f (r_completed n);
  l_ps : tp_up tp i <> [] -> PSP.inv false start (z_ps f);
  l_static : map strip (PS.ports (z_ps f)) = map strip (pt i);
  l_ports : length (z_ports f) = nann (skipn (z_rcvd f) (r_sent n));
  l_rcvd : (z_rcvd f <= length (r_sent n))%nat;
  l_pend : forall g p, In (MMsg g, p) (pl f n) -> fitF i f p g /\ In g (r_transit n) /\ nth_error (pt i) p <> None;
  l_pabs : forall g p, In (MAbsent g, p) (pl f n) -> tag_ok g /\ nth_error (pt i) p <> None;
  l_plog : forall l1 x l2 g p, pl f n = l1 ++ x :: l2 -> In (MMsg g, p) l2 -> before i x g p;
  l_log : grants_respected (r_sent n);
  l_plogfull : provisional_respected (r_sent n);
  l_ptag : forall t, In (MPtag t) (r_sent n) -> small t /\ tp_up tp i <> [];
  l_tag : forall t, In (MTag t) (r_sent n) -> tag_ok t }.

Definition table_ok (s : rti) (e : nat) (c : list (nat * tag) * bool) : Prop :=
  (snd c = true -> zero_cycle tp e) /\ (forall k D, In (k, D) (fst c) -> delay_ok D /\ tmicro D <= Z.of_nat (tp_n tp) /\ tp_up tp e <> []) /\
  (forall k ds, upstream_path tp (fun i => r_connected (s i)) k ds e -> path_time ds < FOREVER -> exists D, In (k, D) (fst c) /\ tag_le D (path_delay ds)).
Record Inv (ann : nat -> nat -> tag) (fs : nat -> zfed) (s : rti) : Prop := {
  i_local : forall i, zlocal ann i (fs i) (s i);
  i_reach : forall j p a, reach ann fs s j p a -> fitF j (fs j) p a /\ fitR j (s j) p a /\ (forall x, In x (pl (fs j) (s j)) -> before j x a p);
  i_delays : forall e c, r_delays (s e) = Some c -> table_ok s e c;
  i_order : order_inv tp s }.

(** ** The connections *)
Lemma w_edge j p q : nth_error (pt j) p = Some q -> exists d, In (PS.source q, d) (tp_up tp j) /\ d <= PS.delay q.
Proof. intros E. apply (Hw j p q E). Qed.
Lemma w_up j p q : nth_error (pt j) p = Some q -> tp_up tp j <> [].
Proof. intros E K. destruct (w_edge _ _ _ E) as (d & Hin & _). rewrite K in Hin. destruct Hin. Qed.
Lemma w_pos j : tp_up tp j <> [] -> 0 < Z.of_nat (tp_n tp).
Proof. intros H. destruct (tp_up tp j) as [|(u & d) l] eqn:E; [contradiction|]. destruct (proj1 Htp j u d) as (K & _); [rewrite E; now left|]. lia. Qed.
Lemma w_delay j p q : nth_error (pt j) p = Some q -> in_int64 (PS.delay q) /\ PS.delay q < FOREVER.
Proof. intros E. destruct (Hw j p q E) as (_ & (_ & _ & K) & _). exact K. Qed.
Lemma ic_delay j p q : nth_error (pt j) p = Some q -> ic j p = true -> PS.in_cycle q = true /\ (PS.delay q < 0 \/ PS.delay q = 0).
Proof. intros E I. unfold ic in I. rewrite E in I. split; [exact I|]. destruct (Hw j p q E) as (_ & _ & _ & _ & _ & K & _). destruct (K I) as [->| ->]; [left; reflexivity|now right]. Qed.
Lemma start_small : small (mkTag start 0).
Proof. destruct Htp. split; cbn [ttime tmicro]; tag_consts; lia. Qed.

(** ** Consequences *)
Definition active (fs : nat -> zfed) (s : rti) (k : nat) (a : tag) : Prop := zlact (fs k) (s k) a \/ exists l1 j p g l2, z_up (fs k) = l1 ++ ZMsg j p g a :: l2.

Lemma active_small ann fs s k a : Inv ann fs s -> active fs s k a -> small a.
Proof.
  intros H [K|(l1 & j & p & g & l2 & K)]; [apply (l_small _ _ _ _ (i_local _ _ _ H k)), K|].
  assert (U : up_ok ann k (fs k) (ZMsg j p g a)) by (apply (l_up _ _ _ _ (i_local _ _ _ H k)); rewrite K; apply in_or_app; right; now left). apply U.
Qed.
Lemma active_cov ann fs s k a : Inv ann fs s -> r_connected (s k) = true -> active fs s k a -> tag_lt (r_completed (s k)) a /\ tag_le (r_next (s k)) a.
Proof.
  intros H C [K|(l1 & j & p & g & l2 & K)].
  - eapply okc_now. apply (l_cov _ _ _ _ (i_local _ _ _ H k) C). exact K.
  - eapply okc_now. eapply (l_org _ _ _ _ (i_local _ _ _ H k) C). exact K.
Qed.
Lemma in_split_msg (f : zfed) j p g o : In (ZMsg j p g o) (z_up f) -> exists l1 l2, z_up f = l1 ++ ZMsg j p g o :: l2.
Proof. apply in_split. Qed.

(** Where a message comes from. *)
Definition source_of (fs : nat -> zfed) (s : rti) (k : nat) (a' : tag) : Prop :=
  exists k' ds a0, active fs s k' a0 /\ r_connected (s k') = true /\ tag_le (arriveZ a0 ds) a' /\ ((ds = [] /\ k' = k) \/ upstream_path tp (fun i => r_connected (s i)) k' ds k).
Lemma reach_src ann fs s j p a : Inv ann fs s -> reach ann fs s j p a ->
  exists q a', nth_error (pt j) p = Some q /\ a = delayZ a' (PS.delay q) /\ r_connected (s (PS.source q)) = true /\ r_connected (s j) = true /\ ttime a < FOREVER /\ source_of fs s (PS.source q) a' /\
  tag_lt (r_completed (s (PS.source q))) a' /\ 0 <= ttime a'.
Proof.
  intros H R. induction R as [k j p a o C1 C2 Hin|j p q a0 a' C1 C2 A E L1 L2 T|j p q p' a0 a' C1 C2 R IH E L1 L2 T].
  - pose proof (l_up _ _ _ _ (i_local _ _ _ H k) _ Hin) as (So & Sg & _ & q & Eq & <- & ->). exists q, o. apply in_split_msg in Hin. destruct Hin as (l1 & l2 & Hin).
    assert (A : active fs s (PS.source q) o) by (right; eauto 8). split; [exact Eq|]. split; [reflexivity|]. split; [exact C1|]. split; [exact C2|]. split; [destruct Sg; lia|]. split; [|split; [apply (active_cov _ _ _ _ _ H C1 A)|destruct So; lia]].
    exists (PS.source q), [], o. split; [exact A|]. split; [exact C1|]. split; [apply tag_le_refl|auto].
  - assert (A2 : active fs s (PS.source q) a0) by (left; exact A). exists q, a'. split; [exact E|]. split; [reflexivity|]. split; [exact C1|]. split; [exact C2|]. split; [exact T|]. split; [|split].
    + exists (PS.source q), [], a0. split; [exact A2|]. split; [exact C1|]. split; [exact L1|auto].
    + eapply tag_lt_le_trans; [apply (active_cov _ _ _ _ _ H C1 A2)|exact L1].
    + apply active_small with (1 := H) in A2. apply tag_le_time in L1. destruct A2. lia.
  - destruct IH as (q1 & a1 & E1 & -> & C3 & _ & T1 & (k' & ds & x & X1 & X2 & X3 & X4) & _ & T0). exists q, a'. split; [exact E|]. split; [reflexivity|]. split; [exact C1|]. split; [exact C2|]. split; [exact T|].
    destruct (w_edge _ _ _ E1) as (d & Hd & Ld). split; [|split].
    + exists k', (ds ++ [d]), x. split; [exact X1|]. split; [exact X2|]. split.
      * rewrite arriveZ_app. eapply tag_le_trans; [apply delayZ_mono, X3|]. eapply tag_le_trans; [apply delayZ_mono_d, Ld|exact L1].
      * right. destruct X4 as [(-> & ->)|X4]; [apply path_one; assumption|]. clear - X4 Hd C1. induction X4 as [k d' e' H1 H2|k d' v ds e' H1 H2 P IH]; cbn [app]; [eapply path_step; [exact H1|exact H2|apply path_one; assumption]|eapply path_step; [exact H1|exact H2|apply IH; assumption]].
    + eapply tag_lt_le_trans; [|exact L1]. destruct (i_reach _ _ _ H _ _ _ R) as ((F1 & F2 & F3 & F4) & _). destruct (l_comp _ _ _ _ (i_local _ _ _ H (PS.source q))) as (_ & K1 & K2).
      destruct (z_busy (fs (PS.source q))) eqn:B; [|eapply tag_le_lt_trans; [exact K1|apply F3; reflexivity]]. eapply tag_lt_le_trans; [apply K2; reflexivity|]. eapply tag_le_trans; [|exact F1].
      apply (l_done _ _ _ _ (i_local _ _ _ H (PS.source q))); [eapply w_up, E1|apply (l_busy _ _ _ _ (i_local _ _ _ H _)), B].
    + apply tag_le_time in L1. rewrite delayZ_time in L1. lia.
Qed.
Lemma ltc_below ann fs s j p a t : Inv ann fs s -> fitF j (fs j) p a -> tp_up tp j <> [] -> ltc_ok (fs j) t -> tag_lt t a.
Proof.
  intros H (F1 & F2 & F3 & F4) U (_ & K1 & K2). destruct (z_busy (fs j)) eqn:B; [|eapply tag_le_lt_trans; [exact K1|apply F3; reflexivity]]. eapply tag_lt_le_trans; [apply K2; reflexivity|]. eapply tag_le_trans; [|exact F1].
  apply (l_done _ _ _ _ (i_local _ _ _ H j)); [exact U|apply (l_busy _ _ _ _ (i_local _ _ _ H _)), B].
Qed.
(** Along any connection of the source. *)
Lemma reach_path ann fs s j p a : Inv ann fs s -> reach ann fs s j p a -> exists q a', nth_error (pt j) p = Some q /\ a = delayZ a' (PS.delay q) /\
  (forall d, In (PS.source q, d) (tp_up tp j) -> exists k ds x, active fs s k x /\ r_connected (s k) = true /\ upstream_path tp (fun i => r_connected (s i)) k ds j /\ tag_le (arriveZ x ds) (delayZ a' d)).
Proof.
  intros H R. destruct (reach_src _ _ _ _ _ _ H R) as (q & a' & E & -> & C1 & C2 & T & (k' & ds & x & X1 & X2 & X3 & X4) & _). exists q, a'. split; [exact E|]. split; [reflexivity|]. intros d Hd. exists k', (ds ++ [d]), x.
  split; [exact X1|]. split; [exact X2|]. split; [|rewrite arriveZ_app; apply delayZ_mono, X3]. destruct X4 as [(-> & ->)|X4]; [apply path_one; assumption|]. clear - X4 Hd C2.
  induction X4 as [k d' e' H1 H2|k d' v ds e' H1 H2 P IH]; cbn [app]; [eapply path_step; [exact H1|exact H2|apply path_one; assumption]|eapply path_step; [exact H1|exact H2|apply IH; assumption]].
Qed.

Lemma reach_mono ann fs s ann' fs' s' : (forall i, r_connected (s' i) = true -> r_connected (s i) = true) ->
  (forall k j p a o, r_connected (s' k) = true -> r_connected (s' j) = true -> In (ZMsg j p a o) (z_up (fs' k)) -> reach ann fs s j p a) ->
  (forall k a, r_connected (s' k) = true -> zlact (fs' k) (s' k) a -> exists a0, tag_le a0 a /\ (zlact (fs k) (s k) a0 \/ exists p, reach ann fs s k p a0)) ->
  (forall j p, tag_le (ann j p) (ann' j p)) -> forall j p a, reach ann' fs' s' j p a -> reach ann fs s j p a.
Proof.
  intros Hc Hm Ha Hn j p a R. induction R as [k j p a o C1 C2 Hin|j p q a0 a' C1 C2 A E L1 L2 T|j p q p' a0 a' C1 C2 R IH E L1 L2 T].
  - eapply Hm; [exact C1|exact C2|exact Hin].
  - assert (L3 : tag_lt (ann j p) a') by (eapply tag_le_lt_trans; [apply Hn|exact L2]). destruct (Ha _ _ C1 A) as (a1 & K1 & [K2|(p' & K2)]).
    + eapply R_direct; [apply Hc, C1|apply Hc, C2|exact K2|exact E|eapply tag_le_trans; eassumption|exact L3|exact T].
    + eapply R_hop; [apply Hc, C1|apply Hc, C2|exact K2|exact E|eapply tag_le_trans; eassumption|exact L3|exact T].
  - eapply R_hop; [apply Hc, C1|apply Hc, C2|exact IH|exact E|exact L1|eapply tag_le_lt_trans; [apply Hn|exact L2]|exact T].
Qed.

(** ** Steps of the coordinator that change neither connections, logs nor grants *)
Lemma pl_core f n n' : r_sent n' = r_sent n -> pl f n' = pl f n.
Proof. unfold pl. intros ->. reflexivity. Qed.
Lemma zlact_core f n n' a : r_sent n' = r_sent n -> zlact f n' a <-> zlact f n a.
Proof. intros E. unfold zlact. rewrite (pl_core f n n' E). reflexivity. Qed.
Lemma local_core ann i f n n' : zlocal ann i f n -> same_core n n' -> (r_next n' = r_next n \/ r_next n' = mkTag start 0) -> zlocal ann i f n'.
Proof.
  intros L C Hn. pose proof C as (E1 & E2 & E3 & E4 & E5 & E6). pose proof (pl_core f n n' E6) as EP. pose proof (zlact_core f n n') as EA. destruct L.
  constructor; rewrite ?E1, ?E2, ?E3, ?E5, ?E6, ?EP; try assumption.
  - intros a Ha. apply l_small0. apply (EA a E6). exact Ha.
  - destruct Hn as [-> | ->]; [assumption|right; left; exact start_small].
  - intros Hc a Ha. apply (EA a E6) in Ha. specialize (l_cov0 Hc a Ha). destruct Hn as [-> | ->]; [assumption|]. eapply okc_raise; [exact l_cov0|]. eapply small_start, l_small0, Ha.
  - intros Hc l1 j p g o l2 E. specialize (l_org0 Hc l1 j p g o l2 E). destruct Hn as [-> | ->]; [assumption|]. eapply okc_raise; [exact l_org0|]. eapply small_start.
    assert (U : up_ok ann i f (ZMsg j p g o)) by (apply l_up0; rewrite E; apply in_or_app; right; now left). apply U.
Qed.
Lemma table_conn s s' e c : (forall i, r_connected (s' i) = true -> r_connected (s i) = true) -> table_ok s e c -> table_ok s' e c.
Proof.
  intros H (T1 & T2 & T3). split; [exact T1|]. split; [exact T2|]. intros k ds P Ht. apply T3; [|exact Ht]. eapply path_incl; [|exact P]. exact H.
Qed.
Lemma inv_core ann fs s s' : Inv ann fs s -> (forall i, same_core (s i) (s' i)) -> (forall i, r_next (s' i) = r_next (s i) \/ r_next (s' i) = mkTag start 0) ->
  (forall e c, r_delays (s' e) = Some c -> table_ok s' e c) -> Inv ann fs s'.
Proof.
  intros H C Hn Hd. assert (ES : forall i, r_sent (s' i) = r_sent (s i)) by (intros i; apply (C i)). constructor.
  - intros i. eapply local_core; [apply (i_local _ _ _ H)|apply C|apply Hn].
  - intros j p a R. assert (R0 : reach ann fs s j p a).
    { revert R. apply reach_mono; [|  | |intros; apply tag_le_refl].
      - intros i. destruct (C i) as (-> & _). auto.
      - intros k j' p' a' o C1 C2 Hin. eapply R_msg; [| |exact Hin]; [destruct (C k) as (<- & _)|destruct (C j') as (<- & _)]; assumption.
      - intros k a' _ A. exists a'. split; [apply tag_le_refl|]. left. apply (zlact_core _ (s k) (s' k) a' (ES k)). exact A. }
    destruct (i_reach _ _ _ H _ _ _ R0) as (F & G & B). split; [exact F|]. split; [|rewrite (pl_core _ (s j) (s' j) (ES j)); exact B]. destruct (C j) as (_ & _ & E3 & E4 & _). unfold fitR in *. rewrite E3, E4. exact G.
  - exact Hd.
  - intros e. destruct (C e) as (_ & _ & E3 & E4 & _ & E6). pose proof (i_order _ _ _ H e) as O. unfold log_inv in *. rewrite E3, E4, E6. exact O.
Qed.

Lemma zero_path ds : path_time ds = 0 -> path_micro ds = 0 -> Forall (fun d => d < 0) ds.
Proof.
  induction ds as [|y ds IH]; intros Z1 Z2; [constructor|]. cbn [path_time path_micro] in *. pose proof (path_time_nonneg ds). pose proof (path_micro_bound ds).
  assert (E1 : path_time ds = 0) by lia. rewrite E1 in *. destruct (Z.eqb_spec y 0) as [->|n]; cbn [andb Z.eqb] in Z2; [lia|]. constructor; [lia|apply IH; lia].
Qed.
Lemma computed_ok s e :
  table_ok s e (match compute_delays tp (fun i => r_connected (s i)) e with Delays table zdc _ => (table, zdc) | _ => ([], false) end).
Proof.
  destruct (lt_dec e (tp_n tp)) as [He|He].
  - destruct (compute_ok tp (fun i => r_connected (s i)) e Htp He) as (d & G & R & ->). split; [|split].
    + cbn [snd]. intros Z. apply (g_zdc _ _ _ d G) in Z. destruct (g_att _ _ _ d G e) as [K|(ds & P & K & Ht & _)]; [rewrite K in Z; discriminate|].
      exists ds. split; [eapply path_incl; [|exact P]; reflexivity|]. rewrite K in Z. unfold path_delay, ZERO_TAG in Z. injection Z as Z1 Z2. apply zero_path; assumption.
    + cbn [fst]. intros k D Hin. apply in_map_iff in Hin. destruct Hin as (i & Ei & Hi). injection Ei as <- <-. apply filter_In in Hi. destruct Hi as (_ & F).
      destruct (g_att _ _ _ d G i) as [K|(ds & P & K & Ht & Hl)]; [rewrite K in F; discriminate|]. rewrite K. split; [apply (path_delay_ok tp (fun i => r_connected (s i)) e Htp); assumption|].
      split; [unfold path_delay; cbn [tmicro]; pose proof (path_micro_bound ds); lia|]. apply path_unsnoc in P. destruct P as (v & d' & ds' & _ & Hin & _). intros U. rewrite U in Hin. destruct Hin.
    + cbn [fst]. intros k ds P Ht. exists (d_path d k). pose proof (relaxed_path _ _ _ Htp He d G R k ds P Ht) as L. split; [|exact L]. apply in_map_iff. exists k. split; [reflexivity|]. apply filter_In.
      split; [apply in_seq; pose proof (path_source_range _ _ _ Htp He k ds P); lia|]. unfold finiteb. apply cmp_lt0. eapply tag_le_lt_trans; [exact L|]. unfold path_delay, FOREVER_TAG. tg. lia.
  - assert (E : tp_up tp e = []) by (apply Hrange; lia). unfold compute_delays. cbn [update_delays]. rewrite E. cbn [relax_loop]. destruct (r_connected (s e)).
    all: cbn [d_path d_count d_zdc d_cycle]; replace (filter _ _) with (@nil nat) by (symmetry; apply filter_none); cbn [length Nat.ltb Nat.leb map].
    all: split; [discriminate|]; split; [intros k D []|]; intros k ds P; exfalso; apply path_unsnoc in P; destruct P as (v & d & ds' & _ & Hin & _); rewrite E in Hin; destruct Hin.
Qed.
Lemma inv_cache ann fs s e : Inv ann fs s -> r_delays (s e) = None ->
  Inv ann fs (on s e (set_delays (Some (match compute_delays tp (fun i => r_connected (s i)) e with Delays table zdc _ => (table, zdc) | _ => ([], false) end)))).
Proof.
  intros H _. set (c := match _ with Delays _ _ _ => _ | _ => _ end). assert (Hc : table_ok s e c) by apply computed_ok. clearbody c.
  assert (K : forall i, r_connected (on s e (set_delays (Some c)) i) = r_connected (s i)) by (intros i; destruct (Nat.eq_dec e i) as [<-|n]; [rewrite on_same|rewrite on_other by exact n]; reflexivity).
  apply (inv_core ann fs s); [exact H| | |].
  - intros i. destruct (Nat.eq_dec e i) as [<-|n]; [rewrite on_same|rewrite on_other by exact n]; unfold same_core; auto 10.
  - intros i. destruct (Nat.eq_dec e i) as [<-|n]; [rewrite on_same|rewrite on_other by exact n]; now left.
  - intros e' c'. destruct (Nat.eq_dec e e') as [<-|n]; [rewrite on_same|rewrite on_other by exact n]; intros E.
    + assert (Ec : c = c') by (cbn in E; congruence). rewrite <- Ec. eapply table_conn; [|exact Hc]. intros i. rewrite K. auto.
    + eapply table_conn; [|apply (i_delays _ _ _ H), E]. intros i. rewrite K. auto.
Qed.
Lemma inv_start ann fs s k : Inv ann fs s -> r_next (s k) = NEVER_TAG -> Inv ann fs (on s k (set_next (mkTag start 0))).
Proof.
  intros H _. assert (K : forall i, r_connected (on s k (set_next (mkTag start 0)) i) = r_connected (s i)) by (intros i; destruct (Nat.eq_dec k i) as [<-|n]; [rewrite on_same|rewrite on_other by exact n]; reflexivity).
  apply (inv_core ann fs s); [exact H| | |].
  - intros i. destruct (Nat.eq_dec k i) as [<-|n]; [rewrite on_same|rewrite on_other by exact n]; unfold same_core; auto 10.
  - intros i. destruct (Nat.eq_dec k i) as [<-|n]; [rewrite on_same; now right|rewrite on_other by exact n; now left].
  - intros e' c' E. apply (table_conn s); [intros i; rewrite K; auto|]. apply (i_delays _ _ _ H). destruct (Nat.eq_dec k e') as [<-|n]; [rewrite on_same in E|rewrite on_other in E by exact n]; exact E.
Qed.

(** ** The bounds the coordinator computes *)
Lemma ext_trans s1 s2 s3 : ext s1 s2 -> ext s2 s3 -> ext s1 s3.
Proof.
  intros H1 H2 i. destruct (H1 i) as (A1 & A2 & A3). destruct (H2 i) as (B1 & B2 & B3). split; [unfold same_core in *; intuition congruence|]. split; [|auto].
  intros K. rewrite B2; [apply A2, K|rewrite A2; assumption].
Qed.
Lemma node_delays_spec s e s' c : node_delays tp s e = (s', c) -> r_delays (s' e) = Some c /\ ext s s'.
Proof.
  intros E. assert (X : ext s (fst (node_delays tp s e))) by (apply (node_delays_P tp (ext s)); [intros; eapply ext_cache; eassumption|apply ext_refl]). rewrite E in X. split; [|exact X].
  unfold node_delays in E. destruct (r_delays (s e)) eqn:D; [injection E as <- <-; exact D|]. match type of E with (on _ _ (set_delays (Some ?c0)), _) = _ => assert (E2 : s' = on s e (set_delays (Some c0)) /\ c = c0) by (split; congruence) end.
  destruct E2 as (-> & ->). rewrite on_same. reflexivity.
Qed.
Lemma eimt_ext s e s' t : eimt tp start s e = (s', t) -> ext s s'.
Proof. intros E. pose proof (eimt_P tp start (ext s) (fun s0 e0 => ext_cache start Hs s s0 e0 _) (fun s0 k => ext_start start Hs s s0 k) s e (ext_refl s)) as X. rewrite E in X. exact X. Qed.

Definition path_to (fs : nat -> zfed) (s : rti) (e : nat) (b : tag) : Prop :=
  exists k ds x, active fs s k x /\ r_connected (s k) = true /\ upstream_path tp (fun i => r_connected (s i)) k ds e /\ tag_le (arriveZ x ds) b.
Lemma eimt_loop_micro l : (forall k D, In (k, D) l -> tag_ok D) -> forall s t, (forall k, tag_ok (r_next (s k))) -> tag_ok t -> tag_ok (snd (eimt_loop start l s t)).
Proof.
  induction l as [|(k & D) l IH]; intros HD s t Hn Ht; [exact Ht|]. cbn [eimt_loop]. assert (Hn2 : forall k0, tag_ok (r_next (assume_start start s k k0))).
  { intros k0. unfold assume_start. destruct (_ =? 0); [|apply Hn]. destruct (Nat.eq_dec k k0) as [<-|n]; [rewrite on_same; cbn; apply (small_ok tp start Hs), start_small|rewrite on_other by exact n; apply Hn]. }
  apply IH; [intros k0 D0 H0; apply (HD k0); now right|exact Hn2|]. destruct (_ <? 0); [|exact Ht]. apply tag_add_ok; [apply Hn2|apply (HD k); now left].
Qed.
Lemma next_ok ann fs s k : Inv ann fs s -> tag_ok (r_next (s k)).
Proof. intros H. destruct (l_next _ _ _ _ (i_local _ _ _ H k)) as [->|K]; [tag_consts; lia|apply (good_ok tp start Hs), K]. Qed.

Lemma eimt_le ann fs s e s' t : Inv ann fs s -> eimt tp start s e = (s', t) ->
  Inv ann fs s' /\ ext s s' /\ tag_ok t /\ tag_le t FOREVER_TAG /\ (tp_up tp e = [] -> t = FOREVER_TAG) /\
  (forall s2, ext s' s2 -> Inv ann fs s2 -> forall b, path_to fs s2 e b -> ttime b < FOREVER -> tag_le t b).
Proof.
  intros H E. assert (H' : Inv ann fs s') by (pose proof (eimt_P tp start (Inv ann fs) (inv_cache ann fs) (inv_start ann fs) s e H) as K; rewrite E in K; exact K). split; [exact H'|]. split; [eapply eimt_ext, E|].
  unfold eimt in E. destruct (node_delays tp s e) as [s1 c] eqn:E1. destruct (node_delays_spec _ _ _ _ E1) as (D1 & X0).
  assert (H1 : Inv ann fs s1) by (pose proof (node_delays_P tp (Inv ann fs) (inv_cache ann fs) s e H) as K; rewrite E1 in K; exact K).
  pose proof (i_delays _ _ _ H1 e c D1) as (_ & T2' & _).
  assert (M : tag_ok (snd (eimt_loop start (fst c) s1 FOREVER_TAG))) by (apply eimt_loop_micro; [intros k D K; apply (T2' k D K)|intros k; eapply next_ok, H1|tag_consts; lia]).
  pose proof (eimt_loop_bound tp start Hrange Hs (fst c) s1 FOREVER_TAG) as (B1 & B2). pose proof (eimt_loop_ext start Hs s1 (fst c) s1 FOREVER_TAG (ext_refl s1)) as X1.
  assert (U : tp_up tp e = [] -> fst c = []).
  { intros U. destruct (fst c) as [|(k & D) l] eqn:Ec; [reflexivity|]. exfalso. destruct (T2' k D) as (_ & _ & K); [now left|contradiction]. }
  rewrite E in *. cbn [fst snd] in *. split; [exact M|]. split; [exact B1|]. split; [intros K; rewrite (U K) in E; cbn in E; congruence|].
  intros s2 X H2 b (k & ds & a & A & Ck & P & Lb) Tb. destruct (X1 e) as (_ & _ & D2). destruct (X e) as (_ & _ & D3). specialize (D3 c (D2 c D1)). destruct (i_delays _ _ _ H2 e c D3) as (_ & T2 & T3).
  pose proof (active_small _ _ _ _ _ H2 A) as Sa. assert (T : ttime (arriveZ a ds) < FOREVER) by (apply tag_le_time in Lb; lia). rewrite arriveZ_time in T. assert (Pt : path_time ds < FOREVER) by (destruct Sa; lia).
  destruct (T3 k ds P Pt) as (D & Din & Dle). destruct (T2 k D Din) as (Dok & Dm & _). destruct (B2 k D Din) as (N & B). destruct (X k) as (_ & N2 & _). pose proof (N2 N) as N3. rewrite <- N3 in B. assert (N4 : r_next (s2 k) <> NEVER_TAG) by (rewrite N3; exact N).
  destruct (active_cov _ _ _ _ _ H2 Ck A) as (_ & Cov).
  assert (Sn : small (r_next (s2 k))).
  { destruct (l_next _ _ _ _ (i_local _ _ _ H2 k)) as [K|[K|K]]; [contradiction|exact K|]. exfalso. rewrite K in Cov. eapply tag_lt_not; [eapply small_forever, Sa|exact Cov]. }
  eapply tag_le_trans; [exact B|]. eapply tag_le_trans; [|exact Lb]. eapply tag_le_trans; [|apply arriveZ_mono, Cov].
  apply entry_bound; [apply (small_ok tp start Hs), Sn|destruct Sn; lia|exact Dok|exact Dle|destruct Sn; lia|]. rewrite arriveZ_time. assert (ttime (r_next (s2 k)) <= ttime a) by (apply tag_le_time, Cov). lia.
Qed.
Lemma strict_loop_spec ann fs l : forall s t s' r, Inv ann fs s -> strict_loop tp start l s t = (s', r) ->
  Inv ann fs s' /\ ext s s' /\ tag_le r t /\ forall k d, In (k, d) l -> (exists c, r_delays (s' k) = Some c /\ snd c = true) \/
    (forall s2, ext s' s2 -> Inv ann fs s2 -> forall a', source_of fs s2 k a' -> ttime (delayZ a' d) < FOREVER -> tag_le r (delayZ a' d)).
Proof.
  induction l as [|(k & d) l IH]; intros s t s' r H E; cbn [strict_loop] in E; [injection E as <- <-; split; [exact H|]; split; [apply ext_refl|]; split; [apply tag_le_refl|intros k d []]|].
  destruct (node_delays tp s k) as [s1 c] eqn:E1. destruct (node_delays_spec _ _ _ _ E1) as (D1 & X1). assert (H1 : Inv ann fs s1) by (pose proof (node_delays_P tp (Inv ann fs) (inv_cache ann fs) s k H) as K; rewrite E1 in K; exact K).
  destruct (snd c) eqn:Z.
  - destruct (IH _ _ _ _ H1 E) as (H' & X' & B & Q). split; [exact H'|]. split; [eapply ext_trans; eassumption|]. split; [exact B|]. intros k0 d0 [K|K]; [|apply Q, K]. assert (Ek : k0 = k) by congruence. subst k0.
    left. exists c. split; [|exact Z]. apply (X' k), D1.
  - set (s1' := assume_start start s1 k) in *. assert (H1' : Inv ann fs s1') by (apply assume_start_P; [apply inv_start|exact H1]).
    assert (X1' : ext s1 s1') by (apply (assume_start_P start (ext s1)); [intros; apply (ext_start start Hs); assumption|apply ext_refl]).
    assert (N1 : r_next (s1' k) <> NEVER_TAG).
    { unfold s1', assume_start. destruct (tag_compare (r_next (s1 k)) NEVER_TAG =? 0) eqn:C; [rewrite on_same; cbn [r_next set_next]; unfold NEVER_TAG; intros K; injection K as K; tag_consts; lia|]. intros K. rewrite K in C. discriminate. }
    destruct (eimt tp start s1' k) as [s2 x] eqn:E2. destruct (eimt_le _ _ _ _ _ _ H1' E2) as (H2 & X2 & Ox & _ & _ & Bx). set (m := if tag_compare (r_next (s2 k)) x <? 0 then r_next (s2 k) else x) in *.
    assert (Bm : tag_le m (r_next (s2 k)) /\ tag_le m x) by apply min_tag_le. assert (Om : tag_ok m) by (unfold m; destruct (_ <? 0); [eapply next_ok, H2|exact Ox]).
    set (y := delay_tag m d) in *. assert (By : tag_le (if tag_compare y t <? 0 then y else t) y /\ tag_le (if tag_compare y t <? 0 then y else t) t) by apply (min_tag_le y t).
    destruct (IH _ _ _ _ H2 E) as (H' & X' & B & Q). split; [exact H'|]. split; [eapply ext_trans; [exact X1|]; eapply ext_trans; [exact X1'|]; eapply ext_trans; eassumption|]. split; [eapply tag_le_trans; [exact B|exact (proj2 By)]|].
    intros k0 d0 [K|K]; [|apply Q, K]. assert (Ek : k0 = k /\ d0 = d) by (split; congruence). destruct Ek as (-> & ->). right. intros s3 X3 H3 a' (k' & ds & a0 & A & C & La & P) T.
    assert (X3' : ext s2 s3) by (eapply ext_trans; eassumption). assert (N2 : r_next (s2 k) = r_next (s1' k)) by (destruct (X2 k) as (_ & K2 & _); apply K2, N1). assert (N3 : r_next (s3 k) = r_next (s2 k)) by (destruct (X3' k) as (_ & K2 & _); apply K2; congruence).
    assert (T' : ttime a' < FOREVER) by (rewrite delayZ_time in T; lia).
    eapply tag_le_trans; [exact B|]. eapply tag_le_trans; [exact (proj1 By)|]. apply delay_tag_leZ; [|destruct Om as (_ & Om); unfold in_uint32 in Om; lia|exact T]. destruct P as [(-> & ->)|P].
    + eapply tag_le_trans; [exact (proj1 Bm)|]. rewrite <- N3. eapply tag_le_trans; [apply (active_cov _ _ _ _ _ H3 C A)|exact La].
    + eapply tag_le_trans; [exact (proj2 Bm)|]. apply (Bx s3 X3' H3); [|exact T']. exists k', ds, a0. auto.
Qed.

(** A TAG, or a PTAG, fits: nothing that can still come contradicts it. *)
Definition fits_tag ann fs s e t : Prop := forall p a, reach ann fs s e p a -> tag_lt t a.
Definition fits_ptag ann fs s e t : Prop := forall p a, reach ann fs s e p a -> tag_le t a /\ (ic e p = false -> tag_lt t a).

Lemma completed_fits ann fs s e : Inv ann fs s -> fits_tag ann fs s e (min_completed s (tp_up tp e) FOREVER_TAG).
Proof.
  intros H p a R. destruct (reach_src _ _ _ _ _ _ H R) as (q & a' & E & -> & C1 & C2 & T & _ & Lc & T0). destruct (w_edge _ _ _ E) as (d & Hd & Ld).
  eapply tag_le_lt_trans; [apply (proj2 (min_completed_le s (tp_up tp e) FOREVER_TAG)); [exact Hd|exact C1]|]. eapply tag_lt_le_trans; [|apply delayZ_mono_d, Ld].
  apply delay_strict_belowZ; [apply (l_comp _ _ _ _ (i_local _ _ _ H (PS.source q)))|apply (proj1 Htp) in Hd; tauto|exact Lc|exact T0|]. rewrite delayZ_time in *. lia.
Qed.
Lemma completed_ok ann fs s l : Inv ann fs s -> (forall k d, In (k, d) l -> in_int64 d) -> forall m, tag_ok m -> tag_ok (min_completed s l m).
Proof.
  intros H. induction l as [|(k & d) l IH]; intros Hl m Hm; [exact Hm|]. cbn [min_completed]. assert (Hl' : forall k d, In (k, d) l -> in_int64 d) by (intros k0 d0 K; apply (Hl k0); now right).
  destruct (r_connected (s k)); [|apply IH; assumption]. apply IH; [assumption|]. destruct (_ <? 0); [|exact Hm]. apply delay_strict_ok; [apply (l_comp _ _ _ _ (i_local _ _ _ H k))|apply (Hl k); now left].
Qed.
Lemma eimt_fits ann fs s e s' t : Inv ann fs s -> eimt tp start s e = (s', t) -> forall s2, ext s' s2 -> Inv ann fs s2 -> forall p a, reach ann fs s2 e p a -> tag_le t a.
Proof.
  intros H E s2 X H2 p a R. destruct (eimt_le _ _ _ _ _ _ H E) as (_ & _ & _ & _ & _ & B). destruct (reach_path _ _ _ _ _ _ H2 R) as (q & a' & Eq & Ea & P). destruct (w_edge _ _ _ Eq) as (d & Hd & Ld).
  assert (T : ttime a < FOREVER) by (destruct (reach_src _ _ _ _ _ _ H2 R) as (? & ? & ? & ? & ? & ? & T & _); exact T).
  eapply tag_le_trans; [apply (B s2 X H2 (delayZ a' d)); [apply P, Hd|]|rewrite Ea; apply delayZ_mono_d, Ld]. subst a. rewrite delayZ_time in *. lia.
Qed.
Lemma strict_fits ann fs s e s1 te s' ts t : Inv ann fs s -> eimt tp start s e = (s1, te) -> eimt_strict tp start s1 e = (s', ts) -> tag_le t te -> tag_lt t ts ->
  forall s2, ext s' s2 -> Inv ann fs s2 -> fits_ptag ann fs s2 e t.
Proof.
  intros H E1 E2 Le Ls s2 X H2 p a R. destruct (eimt_le _ _ _ _ _ _ H E1) as (H1 & X0 & _ & _ & _ & B). unfold eimt_strict in E2. destruct (strict_loop_spec ann fs _ _ _ _ _ H1 E2) as (H' & X' & _ & Q).
  assert (X1 : ext s1 s2) by (eapply ext_trans; eassumption). split; [eapply tag_le_trans; [exact Le|]; eapply eimt_fits; [exact H|exact E1|exact X1|exact H2|exact R]|]. intros Ic.
  destruct (reach_src _ _ _ _ _ _ H2 R) as (q & a' & Eq & Ea & C1 & C2 & T & Src & _). destruct (w_edge _ _ _ Eq) as (d & Hd & Ld).
  assert (Td : forall d', d' <= PS.delay q -> ttime (delayZ a' d') < FOREVER) by (intros d' Hd'; subst a; rewrite delayZ_time in *; lia).
  destruct (Q _ _ Hd) as [(c & Dc & Z)|K].
  - destruct (X (PS.source q)) as (_ & _ & D3). apply D3 in Dc. pose proof (proj1 (i_delays _ _ _ H2 _ _ Dc) Z) as ZC. destruct (Hw e p q Eq) as (_ & _ & _ & _ & _ & _ & W). destruct (W ZC) as [K|(K1 & d0 & K2 & K3)]; [unfold ic in Ic; rewrite Eq in Ic; congruence|].
    eapply tag_le_lt_trans; [exact Le|]. rewrite Ea. eapply tag_le_lt_trans; [|apply delayZ_after, K1]. destruct (reach_path _ _ _ _ _ _ H2 R) as (q' & a2 & Eq' & Ea2 & P). assert (q' = q) by congruence. subst q'.
    assert (E0 : a' = delayZ a' d0) by (unfold delayZ; replace (d0 <? 0) with true by lia; reflexivity). rewrite E0. apply (B s2 X1 H2); [|apply Td; lia].
    destruct Src as (k' & ds & x & S1 & S2 & S3 & S4). exists k', (ds ++ [d0]), x. split; [exact S1|]. split; [exact S2|]. split; [|rewrite arriveZ_app; apply delayZ_mono, S3]. destruct S4 as [(-> & ->)|S4]; [apply path_one; assumption|]. clear - S4 K2 C2.
    induction S4 as [k d' e' H1 H2|k d' v ds e' H1 H2 P IH]; cbn [app]; [eapply path_step; [exact H1|exact H2|apply path_one; assumption]|eapply path_step; [exact H1|exact H2|apply IH; assumption]].
  - eapply tag_lt_le_trans; [exact Ls|]. eapply tag_le_trans; [apply (K s2 X H2 a' Src); apply Td, Ld|]. rewrite Ea. apply delayZ_mono_d, Ld.
Qed.

(** ** Grants *)
Lemma pl_end f n m n' : r_sent n' = r_sent n ++ [m] -> is_ann m = false -> (z_rcvd f <= length (r_sent n))%nat -> length (z_ports f) = nann (skipn (z_rcvd f) (r_sent n)) -> pl f n' = pl f n ++ [(m, O)].
Proof.
  intros E A R P. unfold pl. rewrite E, skipn_end by exact R. rewrite <- (app_nil_r (z_ports f)) at 1. rewrite attach_app by exact P. cbn [attach]. rewrite A. reflexivity.
Qed.
Lemma pl_end_ann f n m n' p f' : r_sent n' = r_sent n ++ [m] -> is_ann m = true -> (z_rcvd f <= length (r_sent n))%nat -> length (z_ports f) = nann (skipn (z_rcvd f) (r_sent n)) ->
  z_rcvd f' = z_rcvd f -> z_ports f' = z_ports f ++ [p] -> pl f' n' = pl f n ++ [(m, p)].
Proof.
  intros E A R P E1 E2. unfold pl. rewrite E, E1, E2, skipn_end by exact R. rewrite attach_app by exact P. cbn [attach]. rewrite A. reflexivity.
Qed.

(** A grant is sent. *)
Lemma inv_grant ann fs s e m F : Inv ann fs s -> is_ann m = false -> r_sent (F (s e)) = r_sent (s e) ++ [m] -> r_connected (F (s e)) = r_connected (s e) -> r_completed (F (s e)) = r_completed (s e) -> r_next (F (s e)) = r_next (s e) ->
  r_transit (F (s e)) = r_transit (s e) -> r_delays (F (s e)) = r_delays (s e) -> log_inv (strict_node tp e) (F (s e)) ->
  (match m with MTag t => tag_ok t | MPtag t => small t /\ tp_up tp e <> [] | _ => False end) ->
  (forall p a, reach ann fs s e p a -> fitR e (F (s e)) p a /\ before e (m, O) a p) -> Inv ann fs (on s e F).
Proof.
  intros H Im E1 E2 E3 E4 E5 E6 Or Hm Fit.
  assert (K : forall i, r_connected (on s e F i) = r_connected (s i)) by (intros i; destruct (Nat.eq_dec e i) as [<-|n]; [rewrite on_same; exact E2|rewrite on_other by exact n; reflexivity]).
  pose proof (i_local _ _ _ H e) as L. pose proof (l_rcvd _ _ _ _ L) as Rc. pose proof (l_ports _ _ _ _ L) as Pc.
  assert (EP : pl (fs e) (F (s e)) = pl (fs e) (s e) ++ [(m, O)]) by (apply pl_end; assumption).
  assert (IP : forall g p, In (MMsg g, p) (pl (fs e) (F (s e))) <-> In (MMsg g, p) (pl (fs e) (s e))).
  { intros g p. rewrite EP, in_app_iff. split; [intros [Q|[Q|[]]]; [exact Q|]|now left]. exfalso. destruct m; discriminate. }
  assert (AE : forall a, zlact (fs e) (F (s e)) a <-> zlact (fs e) (s e) a).
  { intros a. unfold zlact. split; intros (Q1 & Q2); (split; [exact Q1|]); (destruct Q2 as [Q2|[Q2|[Q2|(p & Q2)]]]; [now left|right; now left|right; right; now left|right; right; right; exists p; apply IP, Q2]). }
  assert (RR : forall j p a, reach ann fs (on s e F) j p a -> reach ann fs s j p a).
  { apply reach_mono; [intros i; rewrite K; auto| | |intros; apply tag_le_refl].
    - intros k j p a o C1 C2 Hin. rewrite K in C1, C2. eapply R_msg; [exact C1|exact C2|exact Hin].
    - intros k a _ A. exists a. split; [apply tag_le_refl|]. left. destruct (Nat.eq_dec e k) as [<-|n]; [rewrite on_same in A; apply AE, A|rewrite on_other in A by exact n; exact A]. }
  constructor.
  - intros i. destruct (Nat.eq_dec e i) as [<-|n]; [rewrite on_same|rewrite on_other by exact n; apply (i_local _ _ _ H)].
    destruct L. constructor; rewrite ?E1, ?E2, ?E3, ?E4, ?E5, ?E6; try assumption.
    + intros a A. apply l_small0, AE, A.
    + intros C a A. apply l_cov0; [exact C|apply AE, A].
    + rewrite firstn_end by exact Rc. exact l_grant0.
    + rewrite skipn_end, nann_app by exact Rc. unfold nann at 2. cbn [filter]. rewrite Im. cbn [length]. rewrite l_ports0. lia.
    + rewrite app_length. lia.
    + intros g p Q. apply IP in Q. apply l_pend0, Q.
    + intros g p Q. apply (l_pabs0 g p). rewrite EP in Q. apply in_app_or in Q. destruct Q as [Q|[Q|[]]]; [exact Q|]. destruct m; discriminate.
    + intros l1 x l2 g p Q Hin. rewrite EP in Q. apply end_split in Q. destruct Q as [(-> & _)|(l2' & -> & Q)]; [destruct Hin|]. apply in_app_or in Hin. destruct Hin as [Hin|[Hin|[]]]; [eapply l_plog0; eassumption|]. destruct m; discriminate.
    + intros l1 t l2 g Q Hin. apply end_split in Q. destruct Q as [(-> & _)|(l2' & -> & Q)]; [destruct Hin|]. apply in_app_or in Hin. destruct Hin as [Hin|[Hin|[]]]; [eapply l_log0; eassumption|]. subst m. discriminate.
    + intros l1 t l2 g Q Hin. apply end_split in Q. destruct Q as [(-> & _)|(l2' & -> & Q)]; [destruct Hin|]. apply in_app_or in Hin. destruct Hin as [Hin|[Hin|[]]]; [eapply l_plogfull0; eassumption|]. subst m. discriminate.
    + intros t Q. apply in_app_or in Q. destruct Q as [Q|[Q|[]]]; [apply l_ptag0, Q|]. subst m. exact Hm.
    + intros t Q. apply in_app_or in Q. destruct Q as [Q|[Q|[]]]; [apply l_tag0, Q|]. subst m. exact Hm.
  - intros j p a R. apply RR in R. destruct (i_reach _ _ _ H _ _ _ R) as (F1 & F2 & F3). split; [exact F1|]. destruct (Nat.eq_dec e j) as [<-|n]; [rewrite on_same|rewrite on_other by exact n; auto].
    destruct (Fit p a R) as (G1 & G2). split; [exact G1|]. intros x Hx. rewrite EP in Hx. apply in_app_or in Hx. destruct Hx as [Hx|[<-|[]]]; [apply F3, Hx|exact G2].
  - intros e' c E. apply (table_conn s); [intros i; rewrite K; auto|]. apply (i_delays _ _ _ H). destruct (Nat.eq_dec e e') as [<-|n]; [rewrite on_same in E; congruence|rewrite on_other in E by exact n; exact E].
  - intros e'. destruct (Nat.eq_dec e e') as [<-|n]; [rewrite on_same; exact Or|rewrite on_other by exact n; apply (i_order _ _ _ H)].
Qed.
Lemma inv_tag ann fs s e t : Inv ann fs s -> tag_ok t -> fits_tag ann fs s e t -> Inv ann fs (notify_tag (fun _ => true) s e t).
Proof.
  intros H Ot F. pose proof (order_tag tp (fun _ => true) s e t (i_order _ _ _ H) e) as O. revert O. unfold notify_tag. destruct (_ || _ || _) eqn:C; intros O; [exact H|]. rewrite on_same in O.
  apply inv_grant with (m := MTag t); try reflexivity; [exact H|exact O|exact Ot|]. intros p a R. pose proof (F p a R) as K. split; [|exact K]. destruct (i_reach _ _ _ H _ _ _ R) as (_ & (_ & F2) & _). split; [exact K|exact F2].
Qed.
Lemma inv_ptag ann fs t : small t -> forall fuel s e, Inv ann fs s -> tp_up tp e <> [] -> fits_ptag ann fs s e t -> Inv ann fs (notify_ptag tp start (fun _ => true) fuel s e t).
Proof.
  intros St. induction fuel as [|fuel IH]; intros s e H U F; [exact H|]. cbn [notify_ptag]. destruct (_ || _ || _) eqn:C; [exact H|].
  apply orb_false_iff in C. destruct C as (C & C3). apply orb_false_iff in C. destruct C as (C1 & C2). apply negb_false_iff in C1. apply cmp_le0_false in C2, C3.
  apply fold_left_preserves.
  - intros a (k & d) _ K. cbn [fst]. destruct (r_connected (a k)); [|exact K]. destruct (eimt tp start a k) as [s1 x1] eqn:E1. destruct (eimt_strict tp start s1 k) as [s2 x2] eqn:E2.
    destruct (eimt_le _ _ _ _ _ _ K E1) as (K1 & X1 & _ & _ & Bf & _). pose proof E2 as E2'. unfold eimt_strict in E2'. destruct (strict_loop_spec ann fs _ _ _ _ _ K1 E2') as (K2 & X2 & _).
    destruct (0 <? tag_compare x1 t) eqn:B1.
    + apply cmp_gt0 in B1. apply inv_tag; [exact K2|apply (small_ok tp start Hs), St|]. intros p b R. eapply tag_lt_le_trans; [exact B1|]. eapply eimt_fits; [exact K|exact E1|exact X2|exact K2|exact R].
    + destruct ((tag_compare x1 t =? 0) && (0 <? tag_compare x2 t)) eqn:B2; [|exact K2]. apply andb_true_iff in B2. destruct B2 as (B2 & B3). apply cmp_eq0 in B2. apply cmp_gt0 in B3. apply IH; [exact K2| |].
      * intros Uk. apply Bf in Uk. assert (Ef : t = FOREVER_TAG) by congruence. apply small_forever in St. rewrite Ef in St. exact (tag_lt_irrefl _ St).
      * eapply strict_fits; [exact K|exact E1|exact E2|rewrite B2; apply tag_le_refl|exact B3|apply ext_refl|exact K2].
  - pose proof (order_ptag tp s e t (i_order _ _ _ H) C1 C2 C3 e) as O. rewrite on_same in O. apply inv_grant with (m := MPtag t); try reflexivity; [exact H|exact O|split; assumption|].
    intros p a R. destruct (F p a R) as (Q1 & Q2). split; [|split; assumption]. destruct (i_reach _ _ _ H _ _ _ R) as (_ & (F1 & _) & _). split; [exact F1|]. split; assumption.
Qed.
Lemma inv_safe ann fs s e : Inv ann fs s -> Inv ann fs (notify_if_safe tp start (fun _ => true) s e).
Proof.
  intros H. unfold notify_if_safe. destruct (grant_if_safe tp start s e) as [s' g] eqn:E. unfold grant_if_safe in E. destruct (_ && _) in E.
  - injection E as <- <-. destruct (_ =? 0); [exact H|]. apply inv_tag; [exact H| |apply completed_fits, H]. eapply completed_ok; [exact H|intros k d K; apply (proj1 Htp) in K; apply K|tag_consts; lia].
  - destruct (eimt tp start s e) as [s1 td] eqn:E1. destruct (eimt_le _ _ _ _ _ _ H E1) as (H1 & X1 & _ & Bt & _ & _). destruct (eimt_strict tp start s1 e) as [s2 ts] eqn:E2.
    pose proof E2 as E2'. unfold eimt_strict in E2'. destruct (strict_loop_spec ann fs _ _ _ _ _ H1 E2') as (H2 & X2 & Bs & _).
    destruct (_ && _ && _ && _) eqn:C in E.
    + injection E as <- <-. rewrite !andb_true_iff in C. destruct C as (((C1 & C2) & _) & _). apply cmp_gt0 in C1, C2. destruct (_ =? 0); [exact H2|]. apply inv_tag; [exact H2|eapply next_ok, H2|].
      intros p a R. eapply tag_lt_le_trans; [exact C1|]. eapply eimt_fits; [exact H|exact E1|exact X2|exact H2|exact R].
    + destruct (tag_compare td (r_next (s2 e)) =? 0) eqn:C0 in E; [|injection E as <- <-; exact H2]. apply cmp_eq0 in C0. destruct (node_delays tp s2 e) as [s3 c] eqn:E3. destruct (node_delays_spec _ _ _ _ E3) as (D3 & X3).
      assert (H3 : Inv ann fs s3) by (pose proof (node_delays_P tp (Inv ann fs) (inv_cache ann fs) s2 e H2) as K; rewrite E3 in K; exact K).
      destruct (_ && _ && _ && _) eqn:C' in E; [|injection E as <- <-; exact H3]. rewrite !andb_true_iff in C'. destruct C' as (((C1 & C2) & _) & _). apply cmp_gt0 in C2.
      assert (E4 : s' = s3 /\ g = Some (r_next (s2 e), true)) by (split; congruence). destruct E4 as (-> & ->). destruct (tag_compare (r_next (s2 e)) NEVER_TAG =? 0) eqn:C3; [exact H3|].
      assert (Sn : small (r_next (s2 e))).
      { destruct (l_next _ _ _ _ (i_local _ _ _ H2 e)) as [K|[K|K]]; [rewrite K in C3; discriminate|exact K|]. exfalso. rewrite K in C2. eapply tag_lt_not; [exact C2|exact Bs]. }
      apply inv_ptag; [exact Sn|exact H3| |].
      * destruct (i_delays _ _ _ H3 e c D3) as (Zc & _). destruct (Zc C1) as (ds & P & _). apply path_unsnoc in P. destruct P as (v & d' & ds' & _ & Hin & _). intros U. rewrite U in Hin. destruct Hin.
      * eapply strict_fits; [exact H|exact E1|exact E2|rewrite C0; apply tag_le_refl|exact C2|exact X3|exact H3].
Qed.

(** ** Steps of the federates *)
Lemma upd_eq' {A} (g : nat -> A) i v : upd g i v i = v.
Proof. unfold upd. now rewrite Nat.eqb_refl. Qed.
Lemma upd_neq' {A} (g : nat -> A) i v k : k <> i -> upd g i v k = g k.
Proof. intros n. unfold upd. destruct (Nat.eqb_spec k i); [contradiction|reflexivity]. Qed.

Lemma local_ann ann ann' i f n : zlocal ann i f n -> (forall j p, tag_le (ann j p) (ann' j p)) -> zlocal ann' i f n.
Proof.
  intros L M. destruct L. constructor; try assumption. intros m Hm. specialize (l_up0 m Hm). destruct m; try exact l_up0; cbn [up_ok] in *.
  - destruct l_up0 as (K1 & K2 & K3 & K4). split; [exact K1|]. split; [exact K2|]. split; [eapply tag_le_trans; [exact K3|apply M]|exact K4].
  - destruct l_up0 as (K1 & K3 & K4). split; [exact K1|]. split; [eapply tag_le_trans; [exact K3|apply M]|exact K4].
Qed.
Lemma ltc_lt ann i f n p a t : zlocal ann i f n -> fitF i f p a -> tp_up tp i <> [] -> ltc_ok f t -> tag_lt t a.
Proof.
  intros L (F1 & F2 & F3 & F4) U (_ & K1 & K2). destruct (z_busy f) eqn:B; [|eapply tag_le_lt_trans; [exact K1|apply F3; reflexivity]]. eapply tag_lt_le_trans; [apply K2; reflexivity|]. eapply tag_le_trans; [|exact F1].
  apply (l_done _ _ _ _ L); [exact U|apply (l_busy _ _ _ _ L), B].
Qed.
Lemma port_up j p : nth_error (pt j) p <> None -> tp_up tp j <> [].
Proof. intros H. destruct (nth_error (pt j) p) as [q|] eqn:E; [|congruence]. eapply w_up, E. Qed.
Lemma pend_prot ann i f n g p : zlocal ann i f n -> r_connected n = true -> z_alive f = true -> In (MMsg g, p) (pl f n) -> forall l, (forall t, In (ULtc t) l \/ In (URem t) l -> ltc_ok f t) -> okc g (r_completed n) (r_next n) (r_transit n) l.
Proof.
  intros L C A Hin l Hl. destruct (l_pend _ _ _ _ L g p Hin) as (F & T & Np). apply port_up in Np.
  assert (K : okc g (r_completed n) (r_next n) (r_transit n) (er (z_up f))) by (apply (l_cov _ _ _ _ L C); split; [exact A|right; right; right; eauto]). apply okc_now in K. destruct K as (K1 & K2).
  apply okc_prot; [exact T|exact K2|exact K1|]. intros t Ht. eapply ltc_lt; [exact L|exact F|exact Np|apply Hl, Ht].
Qed.

Lemma inv_fed ann ann' fs s i f : Inv ann fs s -> (forall j p, tag_le (ann j p) (ann' j p)) -> zlocal ann' i f (s i) ->
  (forall j p a o, r_connected (s i) = true -> r_connected (s j) = true -> In (ZMsg j p a o) (z_up f) -> reach ann fs s j p a) ->
  (forall a, r_connected (s i) = true -> zlact f (s i) a -> exists a0, tag_le a0 a /\ (zlact (fs i) (s i) a0 \/ exists p, reach ann fs s i p a0)) ->
  (forall p a, reach ann fs s i p a -> fitF i f p a /\ forall x, In x (pl f (s i)) -> before i x a p) -> Inv ann' (upd fs i f) s.
Proof.
  intros H M L Hm Ha Hf.
  assert (RR : forall j p a, reach ann' (upd fs i f) s j p a -> reach ann fs s j p a).
  { apply reach_mono; [auto| | |exact M].
    - intros k j p a o C1 C2 Hin. destruct (Nat.eq_dec k i) as [->|n]; [rewrite upd_eq' in Hin; eapply Hm; [exact C1|exact C2|exact Hin]|rewrite upd_neq' in Hin by exact n; eapply R_msg; [exact C1|exact C2|exact Hin]].
    - intros k a C A. destruct (Nat.eq_dec k i) as [->|n]; [rewrite upd_eq' in A; apply Ha; assumption|rewrite upd_neq' in A by exact n]. exists a. split; [apply tag_le_refl|now left]. }
  constructor.
  - intros k. destruct (Nat.eq_dec k i) as [->|n]; [rewrite upd_eq'; exact L|rewrite upd_neq' by exact n; eapply local_ann; [apply (i_local _ _ _ H)|exact M]].
  - intros j p a R. apply RR in R. destruct (i_reach _ _ _ H _ _ _ R) as (F1 & F2 & F3). destruct (Nat.eq_dec j i) as [->|n]; [rewrite upd_eq'; destruct (Hf p a R); auto|rewrite upd_neq' by exact n; auto].
  - apply (i_delays _ _ _ H).
  - apply (i_order _ _ _ H).
Qed.
Lemma local_push ann i f n m : zlocal ann i f n -> up_ok ann i f m -> ~ In ZResign (z_up f) -> r_connected n = true -> (z_alive f = true \/ forall a, ~ zlact f n a) ->
  (forall a, zlact f n a -> (exists p, In (MMsg a, p) (pl f n)) \/ match m with ZNet t => tag_le t a | ZLtc t => tag_lt t a | ZRem _ => False | _ => True end) ->
  (forall t, m <> ZRem t) -> (forall j p g o, m = ZMsg j p g o -> zlact f n o) -> (forall m' j p o o', In m' (z_up f) -> zann m' = Some (j, p, o') -> zann m = Some (j, p, o) -> tag_lt o' o) -> zlocal ann i (zpush f m) n.
Proof.
  intros L Um Nr C Al Ha Nrem Ho Hch.
  assert (LT : forall t, In (ULtc t) (er (z_up f ++ [m])) \/ In (URem t) (er (z_up f ++ [m])) -> ltc_ok f t).
  { intros t [K|K]; [apply er_ltc in K|apply er_rem in K]; (apply in_app_or in K; destruct K as [K|[K|[]]]; [apply (l_up _ _ _ _ L) in K; exact K|subst m]); [exact Um|exact Um]. }
  assert (UP : forall m', up_ok ann i f m' -> up_ok ann i (zpush f m) m') by (intros m' K; destruct m'; exact K).
  pose proof L as L'. destruct L. constructor; try assumption.
  - intros m' Hm. cbn [z_up zpush] in Hm. apply UP. apply in_app_or in Hm. destruct Hm as [Hm|[<-|[]]]; [apply l_up0, Hm|exact Um].
  - intros l1 x l2 m' j p o o' E Hin Z1 Z2. cbn [z_up zpush] in E. apply end_split in E. destruct E as [(-> & _)|(l2' & -> & E)]; [destruct Hin|]. apply in_app_or in Hin. destruct Hin as [Hin|[<-|[]]].
    + eapply l_chan0; eassumption.
    + eapply Hch; [|exact Z1|exact Z2]. rewrite E. apply in_or_app. right. now left.
  - intros l1 l2 E. cbn [z_up zpush] in E. apply end_split in E. destruct E as [(-> & _)|(l2' & -> & E)]; [reflexivity|]. exfalso. apply Nr. rewrite E. apply in_or_app. right. now left.
  - intros K. congruence.
  - intros _ a A. change (zlact (zpush f m) n a) with (zlact f n a) in A. destruct (Ha a A) as [(p & K)|K].
    + apply (pend_prot ann i f n a p L' C); [apply A|exact K|]. exact LT.
    + cbn [z_up zpush]. rewrite er_app. specialize (l_cov0 C a A). destruct m; cbn [er flat_map erase app]; try (apply okc_snoc; [exact K|exact l_cov0]); try (apply okc_snoc; [exact Logic.I|exact l_cov0]). rewrite app_nil_r. exact l_cov0.
  - intros _ l1 j p g o l2 E. cbn [z_up zpush] in E. apply end_split in E. destruct E as [(_ & E & ->)|(l2' & _ & E)].
    + apply l_cov0; [exact C|]. eapply Ho. symmetry. exact E.
    + eapply l_org0; [exact C|exact E].
Qed.

Section Step.
Variable ann : nat -> nat -> tag.
Variable fs : nat -> zfed.
Variable s : rti.
Hypothesis H : Inv ann fs s.
Variable i : nat.
Let f := fs i.
Let n := s i.
Hypothesis Ha : z_alive f = true.
Ltac same := intros; apply tag_le_refl.
Ltac here := split; [apply tag_le_refl|].

Lemma st_local : zlocal ann i f n.
Proof. apply (i_local _ _ _ H). Qed.
Lemma st_conn : r_connected n = true.
Proof. destruct (r_connected n) eqn:E; [reflexivity|]. apply (l_conn _ _ _ _ st_local) in E. destruct E. congruence. Qed.
Lemma st_nores : ~ In ZResign (z_up f).
Proof. intros K. apply (l_up _ _ _ _ st_local) in K. cbn in K. congruence. Qed.
Lemma st_msg j p a o : r_connected n = true -> r_connected (s j) = true -> In (ZMsg j p a o) (z_up f) -> reach ann fs s j p a.
Proof. intros C1 C2 Hin. eapply R_msg; [exact C1|exact C2|exact Hin]. Qed.
Lemma st_fit p a : reach ann fs s i p a -> fitF i f p a /\ forall x, In x (pl f n) -> before i x a p.
Proof. intros R. destruct (i_reach _ _ _ H _ _ _ R) as (F & _ & B). auto. Qed.

(** The federate changes only what it intends to do. *)
Lemma local_set f1 : z_alive f1 = true -> z_failed f1 = z_failed f -> z_started f1 = z_started f -> z_busy f1 = z_busy f -> z_dummy f1 = z_dummy f -> z_ps f1 = z_ps f -> z_up f1 = z_up f -> z_rcvd f1 = z_rcvd f -> z_ports f1 = z_ports f ->
  (forall a, zlact f1 n a -> zlact f n a \/ exists a0, tag_le a0 a /\ zlact f n a0 /\ small a) -> (forall a, In a (z_queue f1) -> tag_lt (done f) a) -> zlocal ann i f1 n.
Proof.
  intros E0 E1 E2 E3 E4 E5 E6 E7 E8 A Q. assert (EP : pl f1 n = pl f n) by (unfold pl; rewrite E7, E8; reflexivity). assert (ED : done f1 = done f) by (unfold done, zcur; rewrite E2, E5; reflexivity).
  assert (EL : forall t, ltc_ok f1 t <-> ltc_ok f t) by (intros t; unfold ltc_ok, zcur; rewrite ED, E3, E5; reflexivity).
  assert (UP : forall m', up_ok ann i f m' -> up_ok ann i f1 m') by (intros m' K; destruct m'; cbn [up_ok] in *; [exact K|apply EL, K|apply EL, K|exact K|exact K|congruence]).
  destruct st_local. constructor; try assumption; rewrite ?E1, ?E2, ?E3, ?E4, ?E5, ?E6, ?E7, ?E8, ?EP, ?ED; try assumption.
  - intros a K. destruct (A a K) as [K2|(a0 & _ & _ & K2)]; [apply l_small0, K2|exact K2].
  - intros m Hm. apply UP, l_up0, Hm.
  - intros K. discriminate (eq_trans (eq_sym K) st_conn).
  - intros C a K. destruct (A a K) as [K2|(a0 & K1 & K2 & _)]; [apply l_cov0; assumption|]. eapply okc_mono; [exact K1|]. apply l_cov0; assumption.
  - unfold zcur. rewrite E5. exact l_cur0.
  - unfold zcur, grant. rewrite E5. exact l_done0.
  - unfold grant, prov. rewrite E5. exact l_grant0.
  - apply EL, l_comp0.
  - intros g p K. destruct (l_pend0 g p K) as (K1 & K2). split; [|exact K2]. unfold fitF, grant, prov in *. rewrite ED, E3, E5. exact K1.
Qed.
Lemma fit_set f1 p a : z_started f1 = z_started f -> z_busy f1 = z_busy f -> z_ps f1 = z_ps f -> z_rcvd f1 = z_rcvd f -> z_ports f1 = z_ports f -> fitF i f p a /\ (forall x, In x (pl f n) -> before i x a p) -> fitF i f1 p a /\ forall x, In x (pl f1 n) -> before i x a p.
Proof. intros E2 E3 E5 E7 E8 (F & B). unfold fitF, done, zcur, grant, prov, pl in *. rewrite E2, E3, E5, E7, E8. auto. Qed.

Lemma inv_net t : z_busy f = false -> good_tag t -> (forall a, In a (z_queue f) -> tag_le t a) ->
  Inv ann (upd fs i (mkZfed true (z_failed f) (z_started f) false (z_real f) (z_queue f) (z_dummy f) (z_ps f) (if tag_ltb (z_promise f) t then t else z_promise f) (z_up f ++ [ZNet t]) (z_rcvd f) (z_ports f))) s.
Proof.
  intros Hb Ht Hq. set (pr := if tag_ltb _ _ then _ else _).
  assert (Hp : tag_le (z_promise f) pr /\ tag_le t pr).
  { unfold pr, tag_ltb. destruct (tag_compare (z_promise f) t <? 0) eqn:E; [apply cmp_lt0 in E; split; [apply tag_lt_le, E|apply tag_le_refl]|]. apply cmp_lt0_false in E. split; [apply tag_le_refl|exact E]. }
  set (f1 := mkZfed true (z_failed f) (z_started f) (z_busy f) (z_real f) (z_queue f) (z_dummy f) (z_ps f) pr (z_up f) (z_rcvd f) (z_ports f)).
  assert (AA : forall a, zlact f1 n a -> zlact f n a).
  { intros a (_ & K). split; [exact Ha|]. cbn [z_queue z_busy z_real z_promise f1] in K. destruct K as [K|[K|[(K1 & K2)|K]]]; [now left|right; left; exact K|right; right; left; split; [eapply tag_le_trans; [apply Hp|exact K1]|exact K2]|right; right; right; exact K]. }
  assert (L1 : zlocal ann i f1 n) by (apply local_set; try reflexivity; [intros a K; left; apply AA, K|apply (l_queue _ _ _ _ st_local)]).
  change false with (false : bool). rewrite <- Hb at 1. change (mkZfed _ _ _ _ _ _ _ _ _ _ _ _) with (zpush f1 (ZNet t)).
  apply (inv_fed ann ann fs s i _ H); [same| | | |].
  - apply local_push; [exact L1|exact Ht|exact st_nores|exact st_conn|left; reflexivity| |discriminate|discriminate|discriminate]. intros a (_ & K). cbn [z_queue z_busy z_real z_promise f1] in K.
    destruct K as [K|[K|[(K1 & K2)|K]]]; [right; apply Hq, K|destruct K; congruence|right; eapply tag_le_trans; [apply Hp|exact K1]|now left].
  - intros j p a o C1 C2 Hin. cbn [z_up zpush f1] in Hin. apply in_app_or in Hin. destruct Hin as [Hin|[Hin|[]]]; [eapply st_msg; [exact C1|exact C2|exact Hin]|discriminate].
  - intros a _ A. exists a. here. left. apply AA, A.
  - intros p a R. apply fit_set; try reflexivity. apply st_fit, R.
Qed.
Lemma inv_queue t a0 r : small t -> zlact f n a0 -> tag_le a0 t -> tag_lt (done f) t -> r = z_real f -> Inv ann (upd fs i (mkZfed true (z_failed f) (z_started f) (z_busy f) r (t :: z_queue f) (z_dummy f) (z_ps f) (z_promise f) (z_up f) (z_rcvd f) (z_ports f))) s.
Proof.
  intros Ht A0 L0 D ->. set (f1 := mkZfed _ _ _ _ _ _ _ _ _ _ _ _).
  assert (AA : forall a, zlact f1 n a -> a = t \/ zlact f n a).
  { intros a (_ & K). cbn [z_queue z_busy z_real z_promise f1] in K. destruct K as [[K|K]|K]; [left; auto|right; split; [exact Ha|now left]|right; split; [exact Ha|right; exact K]]. }
  apply (inv_fed ann ann fs s i f1 H); [same| | | |].
  - apply local_set; try reflexivity; [intros a K; apply AA in K; destruct K as [->|K]; [right; exists a0; auto|now left]|]. intros a [<-|K]; [exact D|apply (l_queue _ _ _ _ st_local), K].
  - exact st_msg.
  - intros a _ A. apply AA in A. destruct A as [->|A]; [exists a0; split; [exact L0|now left]|exists a; here; left; exact A].
  - intros p a R. apply fit_set; try reflexivity. apply st_fit, R.
Qed.

Lemma inv_begin t ps : z_busy f = false -> In t (z_queue f ++ z_dummy f) -> (forall a, In a (z_queue f ++ z_dummy f) -> tag_le t a) -> (tp_up tp i = [] \/ tag_le t (grant f)) -> PS.step false start (z_ps f) (PS.OAdvance t) = Some ps ->
  Inv ann (upd fs i (mkZfed true (z_failed f) true true (existsb (tag_eqb t) (z_queue f)) (filter (fun x => negb (tag_eqb t x)) (z_queue f)) (filter (fun x => negb (tag_eqb t x)) (z_dummy f)) ps (z_promise f) (z_up f) (z_rcvd f) (z_ports f))) s.
Proof.
  intros Hb Hin Hq Hg Ep. set (f1 := mkZfed _ _ _ _ _ _ _ _ _ _ _ _). pose proof st_local as L.
  assert (EP : PS.cur ps = t /\ PS.ports ps = PS.ports (z_ps f) /\ PS.last_grant ps = PS.last_grant (z_ps f) /\ PS.provisional ps = PS.provisional (z_ps f)).
  { cbn [PS.step] in Ep. assert (E2 : ps = PS.update_max_level false start (PS.mkFed (PS.ports (z_ps f)) t (PS.last_grant (z_ps f)) (PS.provisional (z_ps f)) (PS.mlaa (z_ps f))) (PS.last_grant (z_ps f)) (PS.provisional (z_ps f))) by congruence. subst ps. repeat split. }
  destruct EP as (P1 & P2 & P3 & P4).
  assert (DS : tag_lt (done f) t /\ small t).
  { apply in_app_or in Hin. destruct Hin as [K|K]; [|apply (l_dummy _ _ _ _ L), K]. split; [apply (l_queue _ _ _ _ L), K|]. apply (l_small _ _ _ _ L). split; [exact Ha|now left]. }
  destruct DS as (D & St).
  assert (D1 : done f1 = t) by (unfold done, zcur; cbn [z_started z_ps f1]; exact P1). assert (C1 : zcur f1 = t) by exact P1.
  assert (G1 : grant f1 = grant f) by exact P3. assert (V1 : prov f1 = prov f) by exact P4. assert (K1 : forall p, knownp (z_ps f1) p = knownp (z_ps f) p) by (intros p; unfold knownp; cbn [z_ps f1]; rewrite P2; reflexivity).
  assert (FF : forall p a, fitF i f p a -> fitF i f1 p a).
  { intros p a (F1 & F2 & F3 & F4). unfold fitF. rewrite G1, V1, K1. split; [exact F1|]. split; [exact F2|]. split; [discriminate|exact F4]. }
  assert (LL : forall x, ltc_ok f x -> ltc_ok f1 x).
  { intros x (X1 & X2 & X3). assert (X4 : tag_lt x t) by (eapply tag_le_lt_trans; eassumption). split; [exact X1|]. rewrite D1, C1. split; [apply tag_lt_le, X4|auto]. }
  assert (RestIn : forall l a, In a (filter (fun x => negb (tag_eqb t x)) l) -> In a l /\ a <> t).
  { intros l a K. apply filter_In in K. destruct K as (K0 & K2). split; [exact K0|]. intros ->. unfold tag_eqb in K2. rewrite (proj2 (cmp_eq0 t t) eq_refl) in K2. discriminate. }
  assert (RestLt : forall l a, (forall x, In x l -> tag_le t x) -> In a (filter (fun x => negb (tag_eqb t x)) l) -> tag_lt t a).
  { intros l a Hl K. apply RestIn in K. destruct K as (K0 & K2). destruct (proj1 (tag_le_lt_or_eq _ _) (Hl a K0)) as [E|E]; [exact E|congruence]. }
  assert (AA : forall a, zlact f1 n a -> zlact f n a).
  { intros a (_ & K). split; [exact Ha|]. cbn [z_queue z_busy z_real z_promise f1] in K. destruct K as [K|[(_ & K2 & K)|[(K0 & K2 & K3)|K]]].
    - apply RestIn in K. left. apply K.
    - left. rewrite K, C1. apply existsb_exists in K2. destruct K2 as (x & Hx & Ex). apply cmp_eq0 in Ex. subst x. exact Hx.
    - right; right; left. split; [exact K0|]. rewrite D1 in K2. split; [eapply tag_le_lt_trans; [apply tag_lt_le, D|exact K2]|exact K3].
    - right; right; right; exact K. }
  apply (inv_fed ann ann fs s i f1 H); [same| | | |].
  - destruct L. constructor; try assumption.
    + intros a A. apply l_small0, AA, A.
    + intros m Hm. specialize (l_up0 m Hm). destruct m; try exact l_up0; cbn [up_ok] in *; [apply LL, l_up0|apply LL, l_up0|congruence].
    + intros K. discriminate (eq_trans (eq_sym K) st_conn).
    + intros K a A. apply l_cov0; [exact K|apply AA, A].
    + intros _. reflexivity.
    + intros a K. rewrite D1. eapply RestLt; [|exact K]. intros x Hx. apply Hq, in_or_app. now left.
    + intros a K. rewrite D1. split; [eapply RestLt; [|exact K]; intros x Hx; apply Hq, in_or_app; now right|]. apply RestIn in K. apply l_dummy0, K.
    + rewrite C1. split; [exact St|discriminate].
    + intros U _. rewrite C1, G1. destruct Hg as [Hg|Hg]; [contradiction|exact Hg].
    + rewrite G1, V1. exact l_grant0.
    + apply LL, l_comp0.
    + intros U. eapply PSP.step_inv; [tag_consts; lia|apply l_ps0, U| | |exact Ep]; [|exact Logic.I]. cbn. split; [apply (small_ok tp start Hs), St|]. split; [eapply small_start, St|destruct St; lia].
    + cbn [z_ps f1]. rewrite P2. exact l_static0.
    + intros g p K. destruct (l_pend0 g p K) as (K2 & K3). split; [apply FF, K2|exact K3].
  - exact st_msg.
  - intros a _ A. exists a. here. left. apply AA, A.
  - intros p a R. destruct (st_fit p a R) as (F & B). split; [apply FF, F|exact B].
Qed.

Lemma exact_delay c d : small c -> tmicro c < UINT_MAX -> in_int64 d -> small (delay_tag c d) -> delay_tag c d = delayZ c d.
Proof.
  intros Sc Hm Hd Sg. assert (T : ttime c + Z.max 0 d < FOREVER).
  { destruct (Z.ltb_spec d 0); [destruct Sc; lia|]. revert Sg. unfold delay_tag. replace (d <? 0) with false by lia. destruct (_ || _) eqn:B; [destruct Sc as (Sc & _); intros _; apply orb_true_iff in B; destruct B as [B|B]; [|discriminate]; apply Z.eqb_eq in B; tag_consts; lia|].
    destruct (Z.leb_spec (FOREVER - d) (ttime c)); [intros (K & _); cbn in K; lia|]. lia. }
  apply delay_tag_exact; [apply (small_ok tp start Hs), Sc|exact Hd|exact T|destruct Sc; tag_consts; lia|exact Hm].
Qed.
Definition announce (j p : nat) (t : tag) : nat -> nat -> tag := upd ann j (upd (ann j) p t).
Lemma announce_le j p t : tag_lt (ann j p) t -> forall j' p', tag_le (ann j' p') (announce j p t j' p').
Proof.
  intros L j' p'. unfold announce. destruct (Nat.eq_dec j' j) as [->|n0]; [rewrite upd_eq'|rewrite upd_neq' by exact n0; apply tag_le_refl]. destruct (Nat.eq_dec p' p) as [->|n1]; [rewrite upd_eq'; apply tag_lt_le, L|rewrite upd_neq' by exact n1; apply tag_le_refl].
Qed.
Lemma announce_eq j p t : announce j p t j p = t.
Proof. unfold announce. rewrite !upd_eq'. reflexivity. Qed.
Lemma st_chan m' j p o' t : In m' (z_up f) -> zann m' = Some (j, p, o') -> tag_lt (ann j p) t -> tag_lt o' t.
Proof.
  intros Hin Z L. pose proof (l_up _ _ _ _ st_local _ Hin) as U. destruct m'; try discriminate; cbn in Z; injection Z as -> -> ->; cbn [up_ok] in U; (eapply tag_le_lt_trans; [|exact L]); apply U.
Qed.

Lemma inv_send j p q : z_busy f = true -> z_real f = true -> nth_error (pt j) p = Some q -> PS.source q = i -> tag_lt (ann j p) (zcur f) -> tmicro (zcur f) < UINT_MAX -> small (delay_tag (zcur f) (PS.delay q)) ->
  Inv (announce j p (zcur f)) (upd fs i (zpush f (ZMsg j p (delay_tag (zcur f) (PS.delay q)) (zcur f)))) s.
Proof.
  intros Hb Hr Eq Es La Hm Sg. set (c := zcur f) in *. pose proof st_local as L. assert (A : zlact f n c) by (split; [exact Ha|right; left; auto]). pose proof (l_small _ _ _ _ L c A) as Sc.
  assert (Ed : delay_tag c (PS.delay q) = delayZ c (PS.delay q)) by (apply exact_delay; [exact Sc|exact Hm|apply (w_delay _ _ _ Eq)|exact Sg]).
  apply (inv_fed ann (announce j p c) fs s i _ H); [apply announce_le, La| | | |].
  - apply local_push; [eapply local_ann; [exact L|apply announce_le, La]| |exact st_nores|exact st_conn|now left|auto|discriminate| |].
    + cbn [up_ok]. split; [exact Sc|]. split; [exact Sg|]. rewrite announce_eq. split; [apply tag_le_refl|]. exists q. auto.
    + intros j' p' g o E. injection E as _ _ _ <-. exact A.
    + intros m' j' p' o o' Hin Z1 Z2. cbn in Z2. injection Z2 as <- <- <-. eapply st_chan; eassumption.
  - intros j' p' a o C1 C2 Hin. cbn [z_up zpush] in Hin. apply in_app_or in Hin. destruct Hin as [Hin|[Hin|[]]]; [eapply st_msg; [exact C1|exact C2|exact Hin]|]. injection Hin as <- <- <- _. rewrite Ed.
    eapply R_direct; [rewrite Es; exact C1|exact C2|rewrite Es; exact A|exact Eq|apply tag_le_refl|exact La|]. rewrite <- Ed. destruct Sg; lia.
  - intros a _ K. exists a. here. left. exact K.
  - intros p' a R. apply fit_set; try reflexivity. apply st_fit, R.
Qed.
Lemma inv_absent j p q : z_busy f = true -> nth_error (pt j) p = Some q -> PS.source q = i -> tag_lt (ann j p) (zcur f) -> tmicro (zcur f) < UINT_MAX -> small (delay_tag (zcur f) (PS.delay q)) ->
  Inv (announce j p (zcur f)) (upd fs i (zpush f (ZAbsent j p (delay_strict (zcur f) (PS.delay q)) (zcur f)))) s.
Proof.
  intros Hb Eq Es La Hm Sg. set (c := zcur f) in *. pose proof st_local as L. pose proof (proj1 (l_cur _ _ _ _ L)) as Sc. fold c in Sc.
  apply (inv_fed ann (announce j p c) fs s i _ H); [apply announce_le, La| | | |].
  - apply local_push; [eapply local_ann; [exact L|apply announce_le, La]| |exact st_nores|exact st_conn|now left|auto|discriminate|discriminate|].
    + cbn [up_ok]. split; [apply delay_strict_ok; [apply (small_ok tp start Hs), Sc|apply (w_delay _ _ _ Eq)]|]. rewrite announce_eq. split; [apply tag_le_refl|]. exists q. split; [exact Eq|]. split; [exact Es|]. intros Ic.
      rewrite delay_strict_cycle; [apply exact_delay; [exact Sc|exact Hm|apply (w_delay _ _ _ Eq)|exact Sg]|]. destruct (Hw j p q Eq) as (_ & _ & _ & _ & _ & K & _). apply K, Ic.
    + intros m' j' p' o o' Hin Z1 Z2. cbn in Z2. injection Z2 as <- <- <-. eapply st_chan; eassumption.
  - intros j' p' a o C1 C2 Hin. cbn [z_up zpush] in Hin. apply in_app_or in Hin. destruct Hin as [Hin|[Hin|[]]]; [eapply st_msg; [exact C1|exact C2|exact Hin]|discriminate].
  - intros a _ K. exists a. here. left. exact K.
  - intros p' a R. apply fit_set; try reflexivity. apply st_fit, R.
Qed.

(** An input whose status is not known holds the levels back. *)
Lemma port_now p q : nth_error (pt i) p = Some q -> exists q', nth_error (PS.ports (z_ps f)) p = Some q' /\ strip q' = strip q /\ knownp (z_ps f) p = PS.known q'.
Proof. intros E. destruct (strip_nth _ _ _ _ (l_static _ _ _ _ st_local) E) as (q' & E' & S'). exists q'. split; [exact E'|]. split; [exact S'|]. unfold knownp. rewrite E'. reflexivity. Qed.
Lemma held p a : nth_error (pt i) p <> None -> z_busy f = true -> fitF i f p a -> tag_le a (zcur f) -> a = zcur f /\ ic i p = true /\ exists q q', nth_error (pt i) p = Some q /\ nth_error (PS.ports (z_ps f)) p = Some q' /\ strip q' = strip q /\ PortStatusSpec.unknown false start (z_ps f) q' /\ tag_lt (PS.known q') a.
Proof.
  intros Np Hb (F1 & F2 & F3 & F4) Le. pose proof st_local as L. pose proof (port_up _ _ Np) as U. pose proof (l_done _ _ _ _ L U (l_busy _ _ _ _ L Hb)) as Dn.
  assert (Ea : a = zcur f) by (apply tag_le_antisym; [exact Le|eapply tag_le_trans; eassumption]). assert (Eg : grant f = a) by (apply tag_le_antisym; [exact F1|rewrite Ea; exact Dn]).
  destruct (F2 Eg) as (V & Ic). split; [exact Ea|]. split; [exact Ic|]. destruct (nth_error (pt i) p) as [q|] eqn:Eq; [|congruence]. destruct (port_now p q Eq) as (q' & E' & S' & K'). exists q, q'. split; [reflexivity|]. split; [exact E'|]. split; [exact S'|].
  destruct (strip_eq _ _ S') as (S1 & S2 & S3 & S4 & S5). pose proof (F4 Ic) as Kn. rewrite K' in Kn. split; [|exact Kn]. split; [rewrite S1; apply (Hw i p q Eq)|]. split; [rewrite Ea in Kn; exact Kn|]. split.
  - rewrite S4. unfold ic in Ic. rewrite Eq in Ic. exact Ic.
  - intros [G|(_ & G)]; [|unfold prov in V; congruence]. apply (tag_lt_irrefl a). rewrite Ea at 1. rewrite <- Eg. exact G.
Qed.
Lemma complete_fit p a : nth_error (pt i) p <> None -> z_busy f = true -> PS.mlaa (z_ps f) = PS.INT_MAX -> fitF i f p a -> tag_lt (zcur f) a.
Proof.
  intros Np Hb Hm F. destruct (tag_le_total a (zcur f)) as [K|K]; [exfalso|exact K]. destruct (held p a Np Hb F K) as (_ & _ & q & q' & _ & E' & _ & Un & _).
  destruct (l_ps _ _ _ _ st_local (port_up _ _ Np)) as (_ & _ & _ & M & _). pose proof (proj1 M Hm) as Hm'. apply (Hm' q'); [eapply nth_error_In, E'|exact Un].
Qed.
Lemma reach_port j p a : reach ann fs s j p a -> nth_error (pt j) p <> None.
Proof. intros R. destruct (reach_src _ _ _ _ _ _ H R) as (q & ? & E & _). congruence. Qed.
Lemma inv_complete ltc : z_busy f = true -> PS.mlaa (z_ps f) = PS.INT_MAX ->
  Inv ann (upd fs i (mkZfed true (z_failed f) (z_started f) false false (z_queue f) (z_dummy f) (z_ps f) (z_promise f) (if ltc : bool then z_up f ++ [ZLtc (zcur f)] else z_up f) (z_rcvd f) (z_ports f))) s.
Proof.
  intros Hb Hm. pose proof st_local as L. pose proof (l_busy _ _ _ _ L Hb) as St.
  set (f1 := mkZfed true (z_failed f) (z_started f) false false (z_queue f) (z_dummy f) (z_ps f) (z_promise f) (z_up f) (z_rcvd f) (z_ports f)).
  assert (D : done f = zcur f) by (unfold done; rewrite St; reflexivity).
  assert (AA : forall a, zlact f1 n a -> zlact f n a).
  { intros a (_ & K). split; [exact Ha|]. cbn [z_queue z_busy z_real z_promise f1] in K. destruct K as [K|[(K & _)|[K|K]]]; [now left|discriminate|right; right; now left|right; right; right; exact K]. }
  assert (FF : forall p a, nth_error (pt i) p <> None -> fitF i f p a -> fitF i f1 p a).
  { intros p a Np F. pose proof (complete_fit p a Np Hb Hm F) as K. destruct F as (F1 & F2 & F3 & F4). split; [exact F1|]. split; [exact F2|]. split; [|exact F4]. intros _. change (done f1) with (done f). rewrite D. exact K. }
  assert (LL : forall x, ltc_ok f x -> ltc_ok f1 x) by (intros x (X1 & X2 & X3); split; [exact X1|]; split; [exact X2|discriminate]).
  assert (L1 : zlocal ann i f1 n).
  { destruct L. constructor; try assumption.
    - intros a A. apply l_small0, AA, A.
    - intros m Hm'. specialize (l_up0 m Hm'). destruct m; try exact l_up0; cbn [up_ok] in *; [apply LL, l_up0|apply LL, l_up0|congruence].
    - intros K. discriminate (eq_trans (eq_sym K) st_conn).
    - intros K a A. apply l_cov0; [exact K|apply AA, A].
    - discriminate.
    - apply LL, l_comp0.
    - intros g p K. destruct (l_pend0 g p K) as (K2 & K3 & K4). split; [apply FF; assumption|auto]. }
  assert (RF : forall p a, reach ann fs s i p a -> fitF i f1 p a /\ forall x, In x (pl f1 n) -> before i x a p).
  { intros p a R. destruct (st_fit p a R) as (F & B). split; [apply FF; [eapply reach_port, R|exact F]|exact B]. }
  destruct ltc.
  - apply (inv_fed ann ann fs s i (zpush f1 (ZLtc (zcur f))) H); [same| | | |exact RF].
    + apply local_push; [exact L1| |exact st_nores|exact st_conn|now left| |discriminate|discriminate|discriminate].
      * split; [apply (small_ok tp start Hs), (l_cur _ _ _ _ L)|]. split; [change (done f1) with (done f); rewrite D; apply tag_le_refl|discriminate].
      * intros a (_ & K). cbn [z_queue z_busy z_real z_promise f1] in K. destruct K as [K|[(K & _)|[(K1 & K2 & _)|K]]]; [right; rewrite <- D; apply (l_queue _ _ _ _ L), K|discriminate|right; rewrite <- D; exact K2|now left].
    + intros j p a o C1 C2 Hin. cbn [z_up zpush f1] in Hin. apply in_app_or in Hin. destruct Hin as [Hin|[Hin|[]]]; [eapply st_msg; [exact C1|exact C2|exact Hin]|discriminate].
    + intros a _ A. exists a. here. left. apply AA, A.
  - apply (inv_fed ann ann fs s i f1 H); [same|exact L1|exact st_msg| |exact RF]. intros a _ A. exists a. here. left. apply AA, A.
Qed.
Lemma inv_resign : Inv ann (upd fs i (mkZfed false (z_failed f) (z_started f) (z_busy f) (z_real f) [] [] (z_ps f) (z_promise f) (z_up f ++ [ZResign]) (z_rcvd f) (z_ports f))) s.
Proof.
  set (f1 := mkZfed false (z_failed f) (z_started f) (z_busy f) (z_real f) [] [] (z_ps f) (z_promise f) (z_up f) (z_rcvd f) (z_ports f)).
  assert (N : forall a, ~ zlact f1 n a) by (intros a (K & _); discriminate).
  assert (L1 : zlocal ann i f1 n).
  { destruct st_local. constructor; try assumption.
    - intros a A. destruct (N a A).
    - intros m Hm. specialize (l_up0 m Hm). destruct m; try exact l_up0. reflexivity.
    - intros K. discriminate (eq_trans (eq_sym K) st_conn).
    - intros K a A. destruct (N a A).
    - intros a [].
    - intros a []. }
  apply (inv_fed ann ann fs s i (zpush f1 ZResign) H); [same| | | |].
  - apply local_push; [exact L1|reflexivity|exact st_nores|exact st_conn|right; exact N| |discriminate|discriminate|discriminate]. intros a A. destruct (N a A).
  - intros j p a o C1 C2 Hin. cbn [z_up zpush f1] in Hin. apply in_app_or in Hin. destruct Hin as [Hin|[Hin|[]]]; [eapply st_msg; [exact C1|exact C2|exact Hin]|discriminate].
  - intros a _ A. destruct (N a A).
  - intros p a R. apply fit_set; try reflexivity. apply st_fit, R.
Qed.

(** Something arrives. *)
Lemma inv_recv m p0 r q d ps ports' : nth_error (r_sent n) (z_rcvd f) = Some m -> pl f n = (m, p0) :: attach (skipn (S (z_rcvd f)) (r_sent n)) ports' -> length ports' = nann (skipn (S (z_rcvd f)) (r_sent n)) ->
  PS.cur ps = PS.cur (z_ps f) -> map strip (PS.ports ps) = map strip (PS.ports (z_ps f)) ->
  let f1 := mkZfed true (z_failed f) (z_started f) (z_busy f) r q d ps (z_promise f) (z_up f) (S (z_rcvd f)) ports' in
  (forall p a, nth_error (pt i) p <> None -> fitF i f p a -> before i (m, p0) a p -> fitF i f1 p a) -> (forall a, zlact f1 n a -> zlact f n a) ->
  (forall a, In a q -> tag_lt (done f) a) -> (forall a, In a d -> tag_lt (done f) a /\ small a) -> (tp_up tp i <> [] -> z_started f = true -> tag_le (PS.cur ps) (PS.last_grant ps)) ->
  ((PS.last_grant ps = grant f /\ PS.provisional ps = prov f) \/ (m = MTag (PS.last_grant ps) /\ PS.provisional ps = false) \/ (m = MPtag (PS.last_grant ps) /\ PS.provisional ps = true)) ->
  (tp_up tp i <> [] -> PSP.inv false start ps) -> Inv ann (upd fs i f1) s.
Proof.
  intros Hm EP Ep Ec Est f1 FF AA Hq Hd Hdn Hg Hps. destruct (nth_at _ _ _ Hm) as (E1 & E2 & E3). pose proof st_local as L.
  assert (EP1 : pl f1 n = attach (skipn (S (z_rcvd f)) (r_sent n)) ports') by reflexivity.
  assert (D1 : done f1 = done f) by (unfold done, zcur; cbn [z_started z_ps f1]; rewrite Ec; reflexivity).
  assert (LL : forall x, ltc_ok f x -> ltc_ok f1 x) by (intros x X; unfold ltc_ok, zcur in *; rewrite D1; cbn [z_busy z_ps f1]; rewrite Ec; exact X).
  assert (PB : forall x, In x (pl f1 n) -> In x (pl f n)) by (intros x Hx; rewrite EP; right; exact Hx).
  apply (inv_fed ann ann fs s i f1 H); [same| |exact st_msg| |].
  - destruct L. constructor; try assumption.
    + intros a A. apply l_small0, AA, A.
    + intros m' Hm'. specialize (l_up0 m' Hm'). destruct m'; try exact l_up0; cbn [up_ok] in *; [apply LL, l_up0|apply LL, l_up0|congruence].
    + intros K. discriminate (eq_trans (eq_sym K) st_conn).
    + intros K a A. apply l_cov0; [exact K|apply AA, A].
    + intros a K. rewrite D1. apply Hq, K.
    + intros a K. rewrite D1. apply Hd, K.
    + unfold zcur. cbn [z_ps f1]. rewrite Ec. exact l_cur0.
    + unfold grant, prov. cbn [z_ps z_rcvd f1]. fold n. rewrite E2. destruct Hg as [(G1 & G2)|[(G1 & G2)|(G1 & G2)]].
      * rewrite G1, G2. destruct l_grant0 as [K|[(K & V)|(K & V)]]; [left; exact K|right; left; split; [apply in_or_app; now left|exact V]|right; right; split; [apply in_or_app; now left|exact V]].
      * right; left. split; [|exact G2]. apply in_or_app. right. left. exact G1.
      * right; right. split; [|exact G2]. apply in_or_app. right. left. exact G1.
    + apply LL, l_comp0.
    + cbn [z_ps f1]. rewrite Est. exact l_static0.
    + intros g p K. destruct (l_pend0 g p (PB _ K)) as (K1 & K2 & K3). split; [|auto]. apply FF; [exact K3|exact K1|]. eapply (l_plog0 [] (m, p0)); [exact EP|]. exact K.
    + intros g p K. apply (l_pabs0 g p (PB _ K)).
    + intros l1 x l2 g p K Hin. eapply (l_plog0 ((m, p0) :: l1)); [|exact Hin]. etransitivity; [exact EP|]. cbn [app]. f_equal. exact K.
  - intros a _ A. exists a. here. left. apply AA, A.
  - intros p a R. destruct (st_fit p a R) as (F & B). split; [apply FF; [eapply reach_port, R|exact F|apply B; rewrite EP; now left]|]. intros x Hx. apply B, PB, Hx.
Qed.
Lemma pl_grant m : nth_error (r_sent n) (z_rcvd f) = Some m -> is_ann m = false -> pl f n = (m, O) :: attach (skipn (S (z_rcvd f)) (r_sent n)) (z_ports f) /\ length (z_ports f) = nann (skipn (S (z_rcvd f)) (r_sent n)).
Proof.
  intros Hm Im. destruct (nth_at _ _ _ Hm) as (E1 & _). pose proof (l_ports _ _ _ _ st_local) as P. unfold pl. rewrite E1 in *. cbn [attach]. rewrite Im. split; [reflexivity|]. rewrite P. unfold nann. cbn [filter]. rewrite Im. reflexivity.
Qed.
Lemma pl_ann m : nth_error (r_sent n) (z_rcvd f) = Some m -> is_ann m = true -> exists p rest, z_ports f = p :: rest /\ pl f n = (m, p) :: attach (skipn (S (z_rcvd f)) (r_sent n)) rest /\ length rest = nann (skipn (S (z_rcvd f)) (r_sent n)).
Proof.
  intros Hm Im. destruct (nth_at _ _ _ Hm) as (E1 & _). pose proof (l_ports _ _ _ _ st_local) as P. unfold pl. rewrite E1 in *. unfold nann in P. cbn [filter] in P. rewrite Im in P. cbn [length] in P.
  destruct (z_ports f) as [|p rest]; [discriminate|]. exists p, rest. split; [reflexivity|]. cbn [attach]. rewrite Im. split; [reflexivity|]. cbn [length] in P. unfold nann. lia.
Qed.
Lemma grant_order m : nth_error (r_sent n) (z_rcvd f) = Some m -> tp_up tp i <> [] -> match m with MTag t => tag_ok t -> tag_le (grant f) t | MPtag t => small t -> tag_lt (grant f) t | _ => True end.
Proof.
  intros Hm U. destruct (nth_at _ _ _ Hm) as (E1 & _). destruct (i_order _ _ _ H i) as (O1 & _).
  assert (K : r_sent n = firstn (z_rcvd f) (r_sent n) ++ m :: skipn (S (z_rcvd f)) (r_sent n)) by (rewrite <- E1; symmetry; apply firstn_skipn). specialize (O1 _ _ _ K).
  assert (S' : strict_node tp i = true) by (unfold strict_node; destruct (tp_up tp i); [contradiction|reflexivity]). rewrite S' in O1.
  destruct (l_grant _ _ _ _ st_local) as [(G & _)|[(G & _)|(G & _)]]; destruct m; try exact Logic.I; intros T.
  - rewrite G. apply tag_never_least, T.
  - rewrite G. apply (small_never tp start Hs), T.
  - apply tag_lt_le. apply (O1 _ G). reflexivity.
  - apply (O1 _ G). reflexivity.
  - apply (O1 _ G).
  - apply (O1 _ G).
Qed.
Lemma cur_before t : small t -> tp_up tp i <> [] -> tag_lt (grant f) t -> tag_le (zcur f) t /\ tag_lt (done f) t.
Proof.
  intros Sm U G. pose proof st_local as L. unfold done. destruct (z_started f) eqn:E.
  - assert (K : tag_lt (zcur f) t) by (eapply tag_le_lt_trans; [apply (l_done _ _ _ _ L U E)|exact G]). split; [apply tag_lt_le, K|exact K].
  - rewrite (proj2 (l_cur _ _ _ _ L) E). split; [eapply small_start, Sm|apply (small_never tp start Hs), Sm].
Qed.
Lemma recv_tag t : nth_error (r_sent n) (z_rcvd f) = Some (MTag t) -> Inv ann (upd fs i (zrecv start index i f (MTag t))) s.
Proof.
  intros Hm. pose proof st_local as L. destruct (pl_grant _ Hm eq_refl) as (P1 & P2). destruct (ps_tag_spec start (z_ps f) t) as (ps & E & C & St & Kn & G). unfold zrecv. rewrite E. assert (Ot : tag_ok t) by (apply (l_tag _ _ _ _ L); eapply nth_error_In, Hm).
  apply (inv_recv (MTag t) O); try assumption.
  - intros p a Np (F1 & F2 & F3 & F4) B. cbn [before fst] in B. unfold fitF, grant, prov, done, zcur in *. cbn [z_ps z_busy z_started]. rewrite C. destruct G as [(G1 & G2)|(G1 & G2 & G3)]; rewrite G1, G2.
    + split; [apply tag_lt_le, B|]. split; [intros K; rewrite K in B; destruct (tag_lt_irrefl _ B)|]. split; [exact F3|]. intros Ic. destruct (Kn p) as [->| ->]; [exact B|apply F4, Ic].
    + split; [exact F1|]. split; [exact F2|]. split; [exact F3|]. intros Ic. destruct (Kn p) as [->| ->]; [exact B|apply F4, Ic].
  - intros a (_ & K). split; [exact Ha|]. cbn [z_queue z_busy z_real z_promise] in K. unfold done, zcur in *. cbn [z_started z_ps] in K. rewrite C in K. destruct K as [K|[K|[K|(p & K)]]]; [now left|right; now left|right; right; now left|]. right; right; right. exists p. rewrite P1. right. exact K.
  - apply (l_queue _ _ _ _ L).
  - apply (l_dummy _ _ _ _ L).
  - intros U Sd. rewrite C. pose proof (l_done _ _ _ _ L U Sd) as Dn. destruct G as [(-> & _)|(-> & _)]; [|exact Dn]. eapply tag_le_trans; [exact Dn|]. apply (grant_order _ Hm U), Ot.
  - destruct G as [(G1 & G2)|(G1 & G2 & _)]; [right; left; rewrite G1; auto|left; auto].
  - intros U. eapply PSP.step_inv; [tag_consts; lia|apply (l_ps _ _ _ _ L U)| | |exact E]; [exact Ot|]. cbn. apply (grant_order _ Hm U), Ot.
Qed.
Lemma recv_ptag t : nth_error (r_sent n) (z_rcvd f) = Some (MPtag t) -> Inv ann (upd fs i (zrecv start index i f (MPtag t))) s.
Proof.
  intros Hm. pose proof st_local as L. destruct (pl_grant _ Hm eq_refl) as (P1 & P2). destruct (l_ptag _ _ _ _ L t) as (Sm & U); [eapply nth_error_In, Hm|]. pose proof (grant_order _ Hm U Sm) as Gt. destruct (cur_before t Sm U Gt) as (Ct & Dt).
  unfold zrecv. destruct (PS.step false start (z_ps f) (PS.OPtag t)) as [ps|] eqn:E.
  2:{ exfalso. cbn [PS.step] in E. destruct (_ || _) eqn:B in E; [|discriminate]. unfold grant in Gt. apply orb_true_iff in B. destruct B as [B|B]; [apply cmp_lt0 in B; eapply tag_lt_not; [exact B|apply tag_lt_le, Gt]|].
      apply andb_true_iff in B. destruct B as (B & _). apply cmp_eq0 in B. rewrite B in Gt. exact (tag_lt_irrefl _ Gt). }
  destruct (ps_ptag_spec _ _ _ _ E) as (C & Po & G1 & G2).
  assert (Main : forall d, (forall a, In a d -> tag_lt (done f) a /\ small a) -> Inv ann (upd fs i (mkZfed true (z_failed f) (z_started f) (z_busy f) (z_real f) (z_queue f) d ps (z_promise f) (z_up f) (S (z_rcvd f)) (z_ports f))) s).
  { intros d Hd. apply (inv_recv (MPtag t) O); try assumption.
    - rewrite Po. reflexivity.
    - intros p a Np (F1 & F2 & F3 & F4) (B1 & B2). unfold fitF, grant, prov, done, zcur, knownp in *. cbn [z_ps z_busy z_started]. cbn [fst] in B1, B2. rewrite C, G1, G2, Po. split; [exact B1|]. split; [|split; [exact F3|exact F4]].
      intros K. split; [reflexivity|]. destruct (ic i p); [reflexivity|]. specialize (B2 eq_refl). rewrite K in B2. destruct (tag_lt_irrefl _ B2).
    - intros a (_ & K). split; [exact Ha|]. cbn [z_queue z_busy z_real z_promise] in K. unfold done, zcur in *. cbn [z_started z_ps] in K. rewrite C in K. destruct K as [K|[K|[K|(p & K)]]]; [now left|right; now left|right; right; now left|]. right; right; right. exists p. rewrite P1. right. exact K.
    - apply (l_queue _ _ _ _ L).
    - intros _ _. rewrite C, G1. exact Ct.
    - right; right. rewrite G1. auto.
    - intros _. eapply PSP.step_inv; [tag_consts; lia|apply (l_ps _ _ _ _ L U)| | |exact E]; [apply (small_ok tp start Hs), Sm|exact Logic.I]. }
  destruct (tag_eqb (zcur f) t); [apply Main, (l_dummy _ _ _ _ L)|]. destruct (tag_ltb t (zcur f)) eqn:B; [exfalso; apply cmp_lt0 in B; eapply tag_lt_not; [exact B|exact Ct]|].
  apply Main. destruct (ttime t =? FOREVER); [apply (l_dummy _ _ _ _ L)|]. intros a [<-|K]; [split; assumption|apply (l_dummy _ _ _ _ L), K].
Qed.

(** What a message or an absence does to the status of the ports. *)
Lemma port_fit m p t ps rest r q d : PS.update_port false start (z_ps f) t p = Some ps -> (m = MMsg t \/ m = MAbsent t) -> (ic i p = true -> tag_le (zcur f) t /\ knownp (z_ps f) p <> t) ->
  let f1 := mkZfed true (z_failed f) (z_started f) (z_busy f) r q d ps (z_promise f) (z_up f) (S (z_rcvd f)) rest in forall p' a, fitF i f p' a -> before i (m, p) a p' -> fitF i f1 p' a.
Proof.
  intros E Em K f1 p' a (F1 & F2 & F3 & F4) B. destruct (ps_update_spec _ _ _ _ _ E) as (C & G & V & St & Ko & Kp). assert (B' : p = p' -> ic i p' = true -> tag_lt t a) by (destruct Em as [-> | ->]; exact B).
  unfold fitF, grant, prov, done, zcur in *. cbn [z_ps z_busy z_started f1]. rewrite C, G, V. split; [exact F1|]. split; [exact F2|]. split; [exact F3|]. intros Ic. destruct (Nat.eq_dec p' p) as [->|n0]; [|rewrite (Ko p' n0); apply F4, Ic].
  destruct (K Ic) as (K1 & K2). destruct (Kp K1 K2) as [->| ->]; [apply B'; auto|apply F4, Ic].
Qed.
Lemma recv_absent t : nth_error (r_sent n) (z_rcvd f) = Some (MAbsent t) -> (forall p rest, z_ports f = p :: rest -> ~ tag_lt t (zcur f) /\ forall q, nth_error (PS.ports (z_ps f)) p = Some q -> PS.known q <> t) -> Inv ann (upd fs i (zrecv start index i f (MAbsent t))) s.
Proof.
  intros Hm Tm. pose proof st_local as L. destruct (pl_ann _ Hm eq_refl) as (p & rest & Ep & P1 & P2). destruct (Tm p rest Ep) as (T1 & T2). destruct (l_pabs _ _ _ _ L t p) as (Ot & Np); [rewrite P1; now left|]. pose proof (port_up _ _ Np) as U.
  unfold zrecv. rewrite Ep. cbn [PS.step]. destruct (nth_error (pt i) p) as [q|] eqn:Eq; [|congruence]. destruct (port_now p q Eq) as (q' & E' & S' & K').
  destruct (PS.update_port false start (z_ps f) t p) as [ps|] eqn:E; [|exfalso; apply (ps_update_some start (z_ps f) t p) in E; [exact E|congruence]]. destruct (ps_update_spec _ _ _ _ _ E) as (C & G & V & St & Ko & Kp).
  apply (inv_recv (MAbsent t) p); try assumption.
  - intros p' a _. eapply port_fit; [exact E|now right|]. intros _. split; [apply tag_not_lt, T1|rewrite K'; apply T2, E'].
  - intros a (_ & K). split; [exact Ha|]. cbn [z_queue z_busy z_real z_promise] in K. unfold done, zcur in *. cbn [z_started z_ps] in K. rewrite C in K. destruct K as [K|[K|[K|(p' & K)]]]; [now left|right; now left|right; right; now left|]. right; right; right. exists p'. rewrite P1. right. exact K.
  - apply (l_queue _ _ _ _ L).
  - apply (l_dummy _ _ _ _ L).
  - rewrite C, G. apply (l_done _ _ _ _ L).
  - left. auto.
  - intros _. eapply (PSP.step_inv false start _ (z_ps f) (PS.OAbsent p t)); [apply (l_ps _ _ _ _ L U)|exact Ot|exact Logic.I|exact E]. Unshelve. tag_consts; lia.
Qed.
Lemma recv_msg t : nth_error (r_sent n) (z_rcvd f) = Some (MMsg t) -> Inv ann (upd fs i (zrecv start index i f (MMsg t))) s.
Proof.
  intros Hm. pose proof st_local as L. destruct (pl_ann _ Hm eq_refl) as (p & rest & Ep & P1 & P2). assert (Hin : In (MMsg t, p) (pl f n)) by (rewrite P1; now left). destruct (l_pend _ _ _ _ L t p Hin) as (F & _ & Np). pose proof (port_up _ _ Np) as U.
  assert (Sm : small t) by (apply (l_small _ _ _ _ L); split; [exact Ha|right; right; right; eauto]). pose proof (small_ok tp start Hs _ Sm) as Ot. assert (At : zlact f n t) by (split; [exact Ha|right; right; right; eauto]).
  unfold zrecv. rewrite Ep. cbn [PS.step]. destruct (nth_error (pt i) p) as [q|] eqn:Eq; [|congruence]. destruct (port_now p q Eq) as (q' & E' & S' & K'). destruct (strip_eq _ _ S') as (S1 & S2 & S3 & S4 & S5).
  destruct (PS.update_port false start (z_ps f) t p) as [ps|] eqn:E; [|exfalso; apply (ps_update_some start (z_ps f) t p) in E; [exact E|congruence]]. destruct (ps_update_spec _ _ _ _ _ E) as (C & G & V & St & Ko & Kp).
  assert (Ips : tp_up tp i <> [] -> PSP.inv false start ps).
  { intros _. eapply (PSP.step_inv false start _ (z_ps f) (PS.OMessageNow p t)); [apply (l_ps _ _ _ _ L U)|exact Ot|exact Logic.I|exact E]. Unshelve. tag_consts; lia. }
  assert (Kn : ic i p = true -> knownp (z_ps f) p <> t) by (intros Ic; apply tag_lt_neq; destruct F as (_ & _ & _ & F4); apply F4, Ic).
  destruct (now index i f p t) eqn:Nw.
  - unfold now in Nw. rewrite E' in Nw. rewrite !andb_true_iff in Nw. destruct Nw as ((((_ & N2) & _) & N4) & _). apply cmp_eq0 in N2. assert (Hb : z_busy f = true).
    { destruct (z_busy f) eqn:Hb; [reflexivity|]. exfalso. destruct F as (_ & _ & F3 & _). rewrite Hb in F3. specialize (F3 eq_refl). unfold done in F3. rewrite N4, N2 in F3. exact (tag_lt_irrefl _ F3). }
    assert (EE : forall X Y : zfed, (if z_busy f then X else Y) = X) by (intros; rewrite Hb; reflexivity). rewrite EE. clear EE. apply (inv_recv (MMsg t) p); try assumption.
    + intros p' a _. eapply port_fit; [exact E|now left|]. intros Ic. split; [rewrite N2; apply tag_le_refl|apply Kn, Ic].
    + intros a (_ & K). cbn [z_queue z_busy z_real z_promise] in K. unfold done, zcur in *. cbn [z_started z_ps] in K. rewrite C in K. destruct K as [K|[(_ & _ & K)|[K|(p' & K)]]]; [split; [exact Ha|now left]|rewrite K, <- N2; exact At|split; [exact Ha|right; right; now left]|].
      split; [exact Ha|]. right; right; right. exists p'. rewrite P1. right. exact K.
    + apply (l_queue _ _ _ _ L).
    + apply (l_dummy _ _ _ _ L).
    + rewrite C, G. apply (l_done _ _ _ _ L).
    + left. auto.
  - rewrite E'. unfold PS.actual_tag. cbn [andb]. rewrite E.
    assert (Ct : tag_le (zcur f) t /\ tag_lt (done f) t /\ z_started f && tag_leb t (zcur f) = false).
    { unfold done. destruct (z_started f) eqn:Sd.
      - assert (K : tag_lt (zcur f) t); [|split; [apply tag_lt_le, K|]; split; [exact K|]; cbn [andb]; unfold tag_leb; apply Z.leb_gt, Z.ltb_lt, cmp_gt0, K].
        destruct (z_busy f) eqn:Hb; [|destruct F as (_ & _ & F3 & _); rewrite Hb in F3; specialize (F3 eq_refl); unfold done in F3; rewrite Sd in F3; exact F3].
        destruct (tag_le_total t (zcur f)) as [K|K]; [exfalso|exact K]. destruct (held p t) as (Ea & Ic & q0 & q1 & X1 & X2 & _ & Un & Kt); [congruence|exact Hb|exact F|exact K|]. assert (q1 = q') by congruence. subst q1.
        destruct (l_ps _ _ _ _ L U) as (_ & _ & M1 & _). specialize (M1 q' (nth_error_In _ _ E') Un). destruct (Hw i p q Eq) as (W1 & _ & _ & W4 & _).
        unfold now in Nw. rewrite E', Sd, S1, W1 in Nw. replace (PS.mlaa (z_ps f) <=? index i p) with true in Nw by (symmetry; apply Z.leb_le; rewrite S2 in M1; lia).
        replace (tag_eqb t (zcur f)) with true in Nw by (symmetry; apply cmp_eq0, Ea). replace (tag_ltb (PS.known q') t) with true in Nw by (symmetry; apply cmp_lt0, Kt). discriminate.
      - rewrite (proj2 (l_cur _ _ _ _ L) Sd). split; [eapply small_start, Sm|]. split; [apply (small_never tp start Hs), Sm|reflexivity]. }
    destruct Ct as (Ct & Dt & ->). apply (inv_recv (MMsg t) p); try assumption.
    + intros p' a _. eapply port_fit; [exact E|now left|]. intros Ic. split; [exact Ct|apply Kn, Ic].
    + intros a (_ & K). cbn [z_queue z_busy z_real z_promise] in K. unfold done, zcur in *. cbn [z_started z_ps] in K. rewrite C in K. destruct K as [[<-|K]|[K|[K|(p' & K)]]]; [exact At|split; [exact Ha|now left]|split; [exact Ha|right; now left]|split; [exact Ha|right; right; now left]|].
      split; [exact Ha|]. right; right; right. exists p'. rewrite P1. right. exact K.
    + intros a [<-|K]; [exact Dt|apply (l_queue _ _ _ _ L), K].
    + apply (l_dummy _ _ _ _ L).
    + rewrite C, G. apply (l_done _ _ _ _ L).
    + left. auto.
Qed.
End Step.

(** ** The coordinator handles a message. *)
Definition zpop (f : zfed) (l : list zmsg) : zfed := mkZfed (z_alive f) (z_failed f) (z_started f) (z_busy f) (z_real f) (z_queue f) (z_dummy f) (z_ps f) (z_promise f) l (z_rcvd f) (z_ports f).
Definition padd (f : zfed) (p : nat) : zfed := mkZfed (z_alive f) (z_failed f) (z_started f) (z_busy f) (z_real f) (z_queue f) (z_dummy f) (z_ps f) (z_promise f) (z_up f) (z_rcvd f) (z_ports f ++ [p]).

Lemma local_pop ann i f n n' m rest pre : zlocal ann i f n -> z_up f = m :: rest -> r_connected n = true -> (pre = [] \/ exists t, pre = [ZRem t] /\ m = ZLtc t) ->
  r_connected n' = r_connected n -> r_sent n' = r_sent n ->
  (r_next n' = NEVER_TAG \/ good_tag (r_next n')) -> (forall t, In t (r_transit n') -> small t) -> (forall g p, In (MMsg g, p) (pl f n) -> In g (r_transit n')) -> ltc_ok f (r_completed n') ->
  (forall a l, tag_lt a FOREVER_TAG -> okc a (r_completed n) (r_next n) (r_transit n) (erase m ++ l) -> okc a (r_completed n') (r_next n') (r_transit n') (er pre ++ l)) ->
  zlocal ann i (zpop f (pre ++ rest)) n'.
Proof.
  intros L E C Hpre E1 E3 Hn Ht Hp Hc Hok.
  assert (PP : pl (zpop f (pre ++ rest)) n' = pl f n) by (unfold pl; rewrite E3; reflexivity).
  assert (AA : forall a, zlact (zpop f (pre ++ rest)) n' a <-> zlact f n a) by (intros a; unfold zlact; rewrite PP; reflexivity).
  destruct L. constructor; rewrite ?E3, ?PP; try assumption.
  - intros a A. apply l_small0, AA, A.
  - intros m' Hm. cbn [z_up zpop] in Hm. assert (U : up_ok ann i f m'); [|destruct m'; exact U]. apply in_app_or in Hm. destruct Hm as [Hm|Hm]; [|apply l_up0; rewrite E; now right].
    destruct Hpre as [->|(t & -> & ->)]; [destruct Hm|]. destruct Hm as [<-|[]]. apply (l_up0 (ZLtc t)). rewrite E. now left.
  - intros l1 x l2 m' j p o o' K. cbn [z_up zpop] in K. destruct Hpre as [->|(t & -> & ->)]; cbn [app] in K; [apply (l_chan0 (m :: l1)); rewrite E, K; reflexivity|].
    destruct l1 as [|x1 l1]; cbn [app] in K; [injection K as <- _; discriminate|]. injection K as _ K. apply (l_chan0 (ZLtc t :: l1)). rewrite E, K. reflexivity.
  - intros l1 l2 K. cbn [z_up zpop] in K. destruct Hpre as [->|(t & -> & ->)]; cbn [app] in K; [apply (l_resign0 (m :: l1)); rewrite E, K; reflexivity|].
    destruct l1 as [|x l1]; [discriminate|]. cbn in K. injection K as _ K. apply (l_resign0 (ZLtc t :: l1)). rewrite E, K. reflexivity.
  - intros K. congruence.
  - intros _ a A. cbn [z_up zpop]. rewrite er_app. apply Hok; [eapply small_forever, l_small0, AA, A|]. change (erase m ++ er rest) with (er (m :: rest)). rewrite <- E. apply l_cov0; [exact C|apply AA, A].
  - intros _ l1 j p g o l2 K. cbn [z_up zpop] in K.
    assert (So : forall l, z_up f = l ++ ZMsg j p g o :: l2 -> tag_lt o FOREVER_TAG).
    { intros l El. assert (U : up_ok ann i f (ZMsg j p g o)) by (apply l_up0; rewrite El; apply in_or_app; right; now left). eapply small_forever, U. }
    destruct Hpre as [->|(t & -> & ->)]; cbn [app] in *.
    + assert (K2 : z_up f = (m :: l1) ++ ZMsg j p g o :: l2) by (rewrite E, K; reflexivity). apply (Hok o (er l1)); [eapply So, K2|]. eapply l_org0 in K2; [|exact C]. exact K2.
    + destruct l1 as [|x l1]; [discriminate|]. cbn in K. injection K as <- K. assert (K2 : z_up f = (ZLtc t :: l1) ++ ZMsg j p g o :: l2) by (rewrite E, K; reflexivity).
      apply (Hok o (er l1)); [eapply So, K2|]. eapply l_org0 in K2; [|exact C]. exact K2.
  - intros g p K. destruct (l_pend0 g p K) as (K1 & K2 & K3). split; [exact K1|]. split; [eapply Hp, K|exact K3].
Qed.
Lemma local_deliver ann j f n n' mm p : zlocal ann j f n -> r_connected n = true -> r_connected n' = r_connected n -> r_completed n' = r_completed n -> r_sent n' = r_sent n ++ [mm] -> nth_error (pt j) p <> None ->
  (forall t, In t (r_transit n) -> In t (r_transit n')) -> (forall t, In t (r_transit n') -> small t) -> (r_next n' = NEVER_TAG \/ good_tag (r_next n')) -> tag_le (r_next n') (r_next n) ->
  match mm with
  | MMsg g => small g /\ fitF j f p g /\ (forall x, In x (pl f n) -> before j x g p) /\ (forall t, In (MTag t) (r_sent n) -> tag_lt t g) /\ (forall t, In (MPtag t) (r_sent n) -> tag_le t g) /\ In g (r_transit n') /\ tag_le (r_next n') g
  | MAbsent g => tag_ok g
  | _ => False
  end -> zlocal ann j (padd f p) n'.
Proof.
  intros L C E1 E2 E3 Np Tr Ts Hn Nn Hmm. pose proof L as L'. pose proof (l_rcvd _ _ _ _ L) as Rc. pose proof (l_ports _ _ _ _ L) as Pc. assert (Im : is_ann mm = true) by (destruct mm; [destruct Hmm|destruct Hmm|reflexivity|reflexivity]).
  assert (PP : pl (padd f p) n' = pl f n ++ [(mm, p)]) by (apply (pl_end_ann f n mm n' p (padd f p)); [exact E3|exact Im|exact Rc|exact Pc|reflexivity|reflexivity]).
  assert (AA : forall a, zlact (padd f p) n' a -> (mm = MMsg a) \/ zlact f n a).
  { intros a (K1 & K). destruct K as [K|[K|[K|(p' & K)]]]; [right; split; [exact K1|now left]|right; split; [exact K1|right; now left]|right; split; [exact K1|right; right; now left]|]. rewrite PP in K. apply in_app_or in K.
    destruct K as [K|[K|[]]]; [right; split; [exact K1|right; right; right; eauto]|left; congruence]. }
  assert (Gr : forall g, mm = MMsg g -> okc g (r_completed n) (r_next n') (r_transit n') (er (z_up f))).
  { intros g ->. destruct Hmm as (Sg & F & _ & _ & _ & Tg & Ng). pose proof (port_up _ _ Np) as U. apply okc_prot; [exact Tg|exact Ng|eapply ltc_lt; [exact L|exact F|exact U|apply (l_comp _ _ _ _ L)]|].
    intros t Ht. eapply ltc_lt; [exact L|exact F|exact U|]. destruct Ht as [Ht|Ht]; [apply er_ltc in Ht|apply er_rem in Ht]; apply (l_up _ _ _ _ L) in Ht; exact Ht. }
  assert (Old : forall a l, tag_lt a FOREVER_TAG -> okc a (r_completed n) (r_next n) (r_transit n) l -> okc a (r_completed n) (r_next n') (r_transit n') l).
  { intros a l Fa K. pose proof (okc_now _ _ _ _ _ K) as (_ & K2). eapply okc_raise; [|eapply tag_le_trans; [exact Nn|exact K2]]. eapply okc_more; [exact Fa|exact K|exact Tr]. }
  destruct L. constructor; rewrite ?E1, ?E2; try assumption.
  - intros a A. apply AA in A. destruct A as [->|A]; [apply Hmm|apply l_small0, A].
  - intros _ a A. apply AA in A. destruct A as [A|A]; [apply Gr, A|]. apply Old; [eapply small_forever, l_small0, A|]. apply l_cov0; assumption.
  - intros _ l1 k p' g' o' l2 K. apply Old; [|eapply l_org0; [exact C|exact K]]. assert (U : up_ok ann j f (ZMsg k p' g' o')) by (apply l_up0; cbn [z_up padd] in K; rewrite K; apply in_or_app; right; now left). eapply small_forever, U.
  - cbn [z_rcvd padd]. rewrite E3, firstn_end by exact Rc. exact l_grant0.
  - cbn [z_rcvd z_ports padd]. rewrite E3, skipn_end, nann_app by exact Rc. unfold nann at 2. cbn [filter]. rewrite Im, app_length. cbn [length]. lia.
  - cbn [z_rcvd padd]. rewrite E3, app_length. lia.
  - intros g p' K. rewrite PP in K. apply in_app_or in K. destruct K as [K|[K|[]]].
    + destruct (l_pend0 g p' K) as (K1 & K2 & K3). split; [exact K1|]. split; [apply Tr, K2|exact K3].
    + injection K as -> <-. destruct Hmm as (Sg & F & _ & _ & _ & Tg & Ng). auto.
  - intros g p' K. rewrite PP in K. apply in_app_or in K. destruct K as [K|[K|[]]]; [apply (l_pabs0 g p' K)|]. injection K as -> <-. auto.
  - intros l1 x l2 g p' K Hin. rewrite PP in K. apply end_split in K. destruct K as [(-> & _)|(l2' & -> & K)]; [destruct Hin|]. apply in_app_or in Hin. destruct Hin as [Hin|[Hin|[]]]; [eapply l_plog0; eassumption|].
    injection Hin as -> <-. apply Hmm. rewrite K. apply in_or_app. right. now left.
  - rewrite E3. intros l1 t l2 g K Hin. apply end_split in K. destruct K as [(-> & _)|(l2' & -> & K)]; [destruct Hin|]. apply in_app_or in Hin. destruct Hin as [Hin|[Hin|[]]]; [eapply l_log0; eassumption|]. subst mm. apply Hmm. rewrite K. apply in_or_app. right. now left.
  - rewrite E3. intros l1 t l2 g K Hin. apply end_split in K. destruct K as [(-> & _)|(l2' & -> & K)]; [destruct Hin|]. apply in_app_or in Hin. destruct Hin as [Hin|[Hin|[]]]; [eapply l_plogfull0; eassumption|]. subst mm. apply Hmm. rewrite K. apply in_or_app. right. now left.
  - rewrite E3. intros t K. apply in_app_or in K. destruct K as [K|[K|[]]]; [apply l_ptag0, K|]. subst mm. destruct Hmm.
  - rewrite E3. intros t K. apply in_app_or in K. destruct K as [K|[K|[]]]; [apply l_tag0, K|]. subst mm. destruct Hmm.
Qed.

Section Take.
Variable ann : nat -> nat -> tag.
Variable fs : nat -> zfed.
Variable s : rti.
Hypothesis H : Inv ann fs s.
Variable i : nat.
Variable m : zmsg.
Variable rest : list zmsg.
Hypothesis E : z_up (fs i) = m :: rest.
Lemma tk_conn : r_connected (s i) = true.
Proof. destruct (r_connected (s i)) eqn:C; [reflexivity|]. apply (l_conn _ _ _ _ (i_local _ _ _ H i)) in C. destruct C as (_ & C). congruence. Qed.
Lemma tk_up : up_ok ann i (fs i) m.
Proof. apply (l_up _ _ _ _ (i_local _ _ _ H i)). rewrite E. now left. Qed.
Lemma tk_reach pre s' : (pre = [] \/ exists t, pre = [ZRem t] /\ m = ZLtc t) -> (forall k, r_connected (s' k) = true -> r_connected (s k) = true) -> (forall k, r_sent (s' k) = r_sent (s k)) ->
  forall j p a, reach ann (upd fs i (zpop (fs i) (pre ++ rest))) s' j p a -> reach ann fs s j p a.
Proof.
  intros Hpre K1 K2. apply reach_mono; [exact K1| | |intros; apply tag_le_refl].
  - intros k j p a o C1 C2 Hin. eapply R_msg; [apply K1, C1|apply K1, C2|]. destruct (Nat.eq_dec k i) as [->|n]; [rewrite upd_eq' in Hin|rewrite upd_neq' in Hin by exact n; exact Hin]. cbn [z_up zpop] in Hin. rewrite E. right.
    apply in_app_or in Hin. destruct Hin as [Hin|Hin]; [|exact Hin]. destruct Hpre as [->|(t & -> & _)]; [destruct Hin|destruct Hin as [Hin|[]]; discriminate].
  - intros k a _ A. exists a. split; [apply tag_le_refl|]. left. destruct (Nat.eq_dec k i) as [->|n]; [rewrite upd_eq' in A|rewrite upd_neq' in A by exact n]; unfold zlact, pl in *; rewrite K2 in A; exact A.
Qed.

(** A message that changes only the sender's record. *)
Lemma inv_take pre s' : (pre = [] \/ exists t, pre = [ZRem t] /\ m = ZLtc t) -> (forall k, k <> i -> s' k = s k) ->
  r_connected (s' i) = r_connected (s i) -> r_granted (s' i) = r_granted (s i) -> r_sent (s' i) = r_sent (s i) -> r_ptag (s' i) = r_ptag (s i) -> r_delays (s' i) = r_delays (s i) ->
  (r_next (s' i) = NEVER_TAG \/ good_tag (r_next (s' i))) -> (forall t, In t (r_transit (s' i)) -> small t) -> (forall g p, In (MMsg g, p) (pl (fs i) (s i)) -> In g (r_transit (s' i))) -> ltc_ok (fs i) (r_completed (s' i)) ->
  (forall a l, tag_lt a FOREVER_TAG -> okc a (r_completed (s i)) (r_next (s i)) (r_transit (s i)) (erase m ++ l) -> okc a (r_completed (s' i)) (r_next (s' i)) (r_transit (s' i)) (er pre ++ l)) ->
  Inv ann (upd fs i (zpop (fs i) (pre ++ rest))) s'.
Proof.
  intros Hpre E0 E1 E2 E3 E4 E5 Hn Ht Hp Hc Hok. pose proof tk_conn as C.
  assert (Kc : forall k, r_connected (s' k) = r_connected (s k)) by (intros k; destruct (Nat.eq_dec k i) as [->|n]; [exact E1|rewrite (E0 k n); reflexivity]).
  assert (Ks : forall k, r_sent (s' k) = r_sent (s k)) by (intros k; destruct (Nat.eq_dec k i) as [->|n]; [exact E3|rewrite (E0 k n); reflexivity]).
  constructor.
  - intros k. destruct (Nat.eq_dec k i) as [->|n]; [rewrite upd_eq'|rewrite upd_neq', E0 by exact n; apply (i_local _ _ _ H)]. eapply local_pop; try eassumption. apply (i_local _ _ _ H).
  - intros j p a R. apply tk_reach in R; [|exact Hpre|intros k; rewrite Kc; auto|exact Ks]. destruct (i_reach _ _ _ H _ _ _ R) as (F1 & F2 & F3). destruct (Nat.eq_dec j i) as [->|n]; [rewrite upd_eq'|rewrite upd_neq', E0 by exact n; auto].
    split; [exact F1|]. split; [unfold fitR in *; rewrite E2, E4; exact F2|]. intros x Hx. apply F3. unfold pl in *. rewrite E3 in Hx. exact Hx.
  - intros e c D. apply (table_conn s); [intros k; rewrite Kc; auto|]. apply (i_delays _ _ _ H). destruct (Nat.eq_dec e i) as [->|n]; [congruence|rewrite (E0 e n) in D; exact D].
  - intros e. destruct (Nat.eq_dec e i) as [->|n]; [eapply log_same; [apply (i_order _ _ _ H)| | |]; assumption|rewrite (E0 e n); apply (i_order _ _ _ H)].
Qed.

(** A message or an absence is forwarded. *)
Lemma tk_chan fs' s' j p q g o : (m = ZMsg j p g o \/ m = ZAbsent j p g o) -> nth_error (pt j) p = Some q -> PS.source q = i -> tag_le o (ann j p) -> g = delayZ o (PS.delay q) -> ic j p = true ->
  z_up (fs' i) = rest -> (forall k, k <> i -> z_up (fs' k) = z_up (fs k)) -> forall a, reach ann fs' s' j p a -> tag_lt g a.
Proof.
  intros Em Eq Es Lo -> Ic Ui Uk a R. destruct (ic_delay _ _ _ Eq Ic) as (_ & Dq).
  assert (Zm : zann m = Some (j, p, o)) by (destruct Em as [-> | ->]; reflexivity).
  inversion R as [k j' p' a1 o' C1 C2 Hin|j' p' q' a0 a' C1 C2 A E' L1 L2 T|j' p' q' p1 a0 a' C1 C2 R' E' L1 L2 T]; subst j' p'; try subst a1; try subst a.
  - assert (Hin' : In (ZMsg j p a o') (z_up (fs k))) by (destruct (Nat.eq_dec k i) as [->|n]; [rewrite E; right; rewrite Ui in Hin; exact Hin|rewrite Uk in Hin by exact n; exact Hin]).
    destruct (l_up _ _ _ _ (i_local _ _ _ H k) _ Hin') as (_ & _ & _ & q2 & Eq2 & Es2 & ->). assert (q2 = q) by congruence. subst q2. assert (Ek : k = i) by congruence. rewrite Ek, Ui in Hin.
    apply delayZ_lt; [|exact Dq]. apply (l_chan _ _ _ _ (i_local _ _ _ H i) [] m rest _ j p o o' E Hin Zm eq_refl).
  - assert (q' = q) by congruence. subst q'. apply delayZ_lt; [|exact Dq]. eapply tag_le_lt_trans; eassumption.
  - assert (q' = q) by congruence. subst q'. apply delayZ_lt; [|exact Dq]. eapply tag_le_lt_trans; eassumption.
Qed.
Lemma inv_deliver fs' s' j p q g o mm : (m = ZMsg j p g o /\ mm = MMsg g \/ m = ZAbsent j p g o /\ mm = MAbsent g) -> nth_error (pt j) p = Some q -> PS.source q = i -> tag_le o (ann j p) -> (PS.in_cycle q = true -> g = delayZ o (PS.delay q)) -> r_connected (s j) = true ->
  (forall k, k <> j -> k <> i -> fs' k = fs k) -> (i <> j -> fs' i = zpop (fs i) rest /\ fs' j = padd (fs j) p) -> (i = j -> fs' j = padd (zpop (fs i) rest) p) ->
  (forall k, k <> j -> s' k = s k) -> r_connected (s' j) = r_connected (s j) -> r_completed (s' j) = r_completed (s j) -> r_granted (s' j) = r_granted (s j) -> r_ptag (s' j) = r_ptag (s j) ->
  r_delays (s' j) = r_delays (s j) -> r_sent (s' j) = r_sent (s j) ++ [mm] -> (forall t, In t (r_transit (s j)) -> In t (r_transit (s' j))) -> (forall t, In t (r_transit (s' j)) -> small t) ->
  (r_next (s' j) = NEVER_TAG \/ good_tag (r_next (s' j))) -> tag_le (r_next (s' j)) (r_next (s j)) ->
  match mm with MMsg g => In g (r_transit (s' j)) /\ tag_le (r_next (s' j)) g | _ => True end -> Inv ann fs' s'.
Proof.
  intros Em Eq Es Lo Hg C G0 G1 G2 E0 E1 E2 E3 E4 E5 E6 Tr Ts Hn Nn Hx. pose proof tk_conn as Ci. pose proof tk_up as Um.
  assert (Im : is_ann mm = true) by (destruct Em as [(_ & ->)|(_ & ->)]; reflexivity).
  assert (Np : nth_error (pt j) p <> None) by congruence. pose proof (port_up _ _ Np) as U.
  assert (Ui : z_up (fs' i) = rest) by (destruct (Nat.eq_dec i j) as [K|K]; [rewrite K, (G2 K); reflexivity|rewrite (proj1 (G1 K)); reflexivity]).
  assert (Uk : forall k, k <> i -> z_up (fs' k) = z_up (fs k)).
  { intros k n. destruct (Nat.eq_dec k j) as [->|n2]; [|rewrite (G0 k n2 n); reflexivity]. destruct (G1 (fun K => n (eq_sym K))) as (_ & ->). reflexivity. }
  assert (Same : forall k, z_alive (fs' k) = z_alive (fs k) /\ z_started (fs' k) = z_started (fs k) /\ z_busy (fs' k) = z_busy (fs k) /\ z_real (fs' k) = z_real (fs k) /\ z_queue (fs' k) = z_queue (fs k) /\ z_ps (fs' k) = z_ps (fs k) /\ z_promise (fs' k) = z_promise (fs k) /\ z_rcvd (fs' k) = z_rcvd (fs k) /\
    (k <> j -> z_ports (fs' k) = z_ports (fs k)) /\ (k = j -> z_ports (fs' k) = z_ports (fs k) ++ [p])).
  { intros k. destruct (Nat.eq_dec i j) as [Ej|n].
    - subst j. specialize (G2 eq_refl). destruct (Nat.eq_dec k i) as [->|n2]; [rewrite G2; cbn; repeat split; intros; congruence|rewrite (G0 k n2 n2); repeat split; intros; congruence].
    - destruct (G1 n) as (X1 & X2). destruct (Nat.eq_dec k j) as [->|n2]; [rewrite X2; cbn; repeat split; intros; congruence|]. destruct (Nat.eq_dec k i) as [->|n3]; [rewrite X1; cbn; repeat split; intros; congruence|rewrite (G0 k n2 n3); repeat split; intros; congruence]. }
  assert (Kc : forall k, r_connected (s' k) = r_connected (s k)) by (intros k; destruct (Nat.eq_dec k j) as [->|n]; [exact E1|rewrite (E0 k n); reflexivity]).
  assert (PPj : pl (fs' j) (s' j) = pl (fs j) (s j) ++ [(mm, p)]).
  { destruct (Same j) as (_ & _ & _ & _ & _ & _ & _ & X1 & _ & X2). apply pl_end_ann; [exact E6|exact Im|apply (l_rcvd _ _ _ _ (i_local _ _ _ H j))|apply (l_ports _ _ _ _ (i_local _ _ _ H j))|exact X1|apply X2; reflexivity]. }
  assert (PPk : forall k, k <> j -> pl (fs' k) (s' k) = pl (fs k) (s k)).
  { intros k n. destruct (Same k) as (_ & _ & _ & _ & _ & _ & _ & X1 & X2 & _). unfold pl. rewrite X1, X2, E0 by exact n. reflexivity. }
  assert (Rm : forall g0, mm = MMsg g0 -> g0 = g /\ reach ann fs s j p g /\ small g).
  { intros g0 Eg. destruct Em as [(-> & ->)|(_ & ->)]; [|discriminate]. split; [congruence|]. cbn [up_ok] in Um. split; [|apply Um]. eapply R_msg; [exact Ci|exact C|]. rewrite E. now left. }
  assert (RR : forall j' p' a, reach ann fs' s' j' p' a -> reach ann fs s j' p' a).
  { apply reach_mono; [intros k; rewrite Kc; auto| | |intros; apply tag_le_refl].
    - intros k j' p' a o' C1 C2 Hin. rewrite Kc in C1, C2. eapply R_msg; [exact C1|exact C2|]. destruct (Nat.eq_dec k i) as [->|n]; [rewrite Ui in Hin; rewrite E; right; exact Hin|rewrite Uk in Hin by exact n; exact Hin].
    - intros k a _ A. exists a. split; [apply tag_le_refl|]. destruct (Same k) as (X1 & X2 & X3 & X4 & X5 & X6 & X7 & _). destruct A as (A0 & A). unfold done, zcur in A. rewrite X1 in A0. rewrite X2, X3, X4, X5, X6, X7 in A.
      destruct A as [A|[A|[A|(p' & A)]]]; [left; split; [exact A0|now left]|left; split; [exact A0|right; now left]|left; split; [exact A0|right; right; now left]|].
      destruct (Nat.eq_dec k j) as [->|n]; [|rewrite (PPk k n) in A; left; split; [exact A0|right; right; right; eauto]]. rewrite PPj in A. apply in_app_or in A. destruct A as [A|[A|[]]]; [left; split; [exact A0|right; right; right; eauto]|].
      right. exists p. destruct (Rm a) as (-> & K & _); [congruence|]. exact K. }
  assert (Pop : zlocal ann i (zpop (fs i) rest) (s i)).
  { eapply (local_pop ann i (fs i) (s i) (s i) m rest []); [apply (i_local _ _ _ H)|exact E|exact Ci|now left|reflexivity|reflexivity|apply (i_local _ _ _ H)|apply (i_local _ _ _ H)|intros g0 p0 K; apply (l_pend _ _ _ _ (i_local _ _ _ H i) _ _ K)|apply (i_local _ _ _ H)|].
    intros a l _ K. cbn [er flat_map app]. destruct Em as [(-> & _)|(-> & _)]; cbn [erase app] in K; [apply K|exact K]. }
  assert (Del : forall f, zlocal ann j f (s j) -> z_ps f = z_ps (fs j) -> z_busy f = z_busy (fs j) -> z_started f = z_started (fs j) -> pl f (s j) = pl (fs j) (s j) -> zlocal ann j (padd f p) (s' j)).
  { intros f Lf Y1 Y2 Y3 Y4. eapply local_deliver; [exact Lf|exact C|exact E1|exact E2|exact E6|exact Np|exact Tr|exact Ts|exact Hn|exact Nn|]. destruct mm as [t|t|g0|g0]; [discriminate|discriminate| |].
    - destruct (Rm g0 eq_refl) as (-> & R & Sg). destruct (i_reach _ _ _ H _ _ _ R) as (F1 & (F2 & F3 & F4) & F5). split; [exact Sg|]. split; [unfold fitF, grant, prov, done, zcur in *; rewrite Y1, Y2, Y3; exact F1|]. rewrite Y4. split; [exact F5|].
      destruct (i_order _ _ _ H j) as (_ & O2 & O3). split; [intros t Ht; eapply tag_le_lt_trans; [apply O3; [unfold strict_node; destruct (tp_up tp j); [contradiction|reflexivity]|exact Ht]|exact F2]|]. split; [intros t Ht; eapply tag_le_trans; [apply O2, Ht|exact F3]|exact Hx].
    - destruct Em as [(_ & K)|(-> & K)]; [discriminate|]. injection K as ->. apply Um. }
  constructor.
  - intros k. destruct (Nat.eq_dec i j) as [Ej|n].
    + subst j. specialize (G2 eq_refl). destruct (Nat.eq_dec k i) as [->|n2]; [rewrite G2; apply Del; [exact Pop|reflexivity|reflexivity|reflexivity|reflexivity]|rewrite (G0 k n2 n2), (E0 k n2); apply (i_local _ _ _ H)].
    + destruct (G1 n) as (X1 & X2). destruct (Nat.eq_dec k j) as [->|n2]; [rewrite X2; apply Del; try reflexivity; apply (i_local _ _ _ H)|]. rewrite (E0 k n2). destruct (Nat.eq_dec k i) as [->|n3]; [rewrite X1; exact Pop|rewrite (G0 k n2 n3); apply (i_local _ _ _ H)].
  - intros j' p' a R. pose proof (RR _ _ _ R) as R0. destruct (i_reach _ _ _ H _ _ _ R0) as (F1 & F2 & F3). destruct (Same j') as (X1 & X2 & X3 & X4 & X5 & X6 & X7 & _).
    split; [unfold fitF, grant, prov, done, zcur in *; rewrite X2, X3, X6; exact F1|]. destruct (Nat.eq_dec j' j) as [->|n]; [|rewrite (PPk j' n), (E0 j' n); auto]. split; [unfold fitR in *; rewrite E3, E4; exact F2|].
    intros x Hx'. rewrite PPj in Hx'. apply in_app_or in Hx'. destruct Hx' as [Hx'|[<-|[]]]; [apply F3, Hx'|].
    assert (K : p = p' -> ic j p' = true -> tag_lt g a).
    { intros <- Ic. eapply tk_chan; [|exact Eq|exact Es|exact Lo|apply Hg; unfold ic in Ic; rewrite Eq in Ic; exact Ic|exact Ic|exact Ui|exact Uk|exact R]. destruct Em as [(K & _)|(K & _)]; [left; exact K|right; exact K]. }
    destruct Em as [(_ & ->)|(_ & ->)]; exact K.
  - intros e c D. apply (table_conn s); [intros k; rewrite Kc; auto|]. apply (i_delays _ _ _ H). destruct (Nat.eq_dec e j) as [->|n]; [congruence|rewrite (E0 e n) in D; exact D].
  - intros e. destruct (Nat.eq_dec e j) as [->|n]; [|rewrite (E0 e n); apply (i_order _ _ _ H)]. eapply (log_snoc _ _ mm); [apply (i_order _ _ _ H)|exact E6| |]; destruct Em as [(_ & ->)|(_ & ->)]; try (intros m' _; destruct m'; exact Logic.I); split; assumption.
Qed.
End Take.

Lemma inv_take_net ann fs s i t rest : Inv ann fs s -> z_up (fs i) = ZNet t :: rest -> Inv ann (upd fs i (zpop (fs i) rest)) (update_fed_next tp start (fun _ => true) s i t).
Proof.
  intros H E. set (fs' := upd _ _ _). pose proof (tk_up ann fs s H i _ _ E) as U. cbn in U. pose proof (i_local _ _ _ H i) as L. unfold update_fed_next. fold (min_tag (transit_peek (r_transit (s i))) t). set (m := min_tag _ _).
  assert (Gm : good_tag m) by (apply (min_good tp start); [apply peek_good, L|exact U]).
  assert (K : Inv ann fs' (on s i (set_next m))).
  { apply (inv_take ann fs s H i _ _ E [] (on s i (set_next m))); rewrite ?on_same; try reflexivity; [now left|intros k n; apply on_other; congruence|right; exact Gm|apply L|intros g p K; apply (l_pend _ _ _ _ L _ _ K)|apply L|]. intros a l _ Ho. apply Ho. }
  apply (update_next_P tp start (fun s => Inv ann fs' s)); [intros; apply inv_safe; assumption|exact K|]. intros Un.
  set (s1 := on s i (set_next m)) in *. set (s2 := on s1 i (set_granted m)).
  assert (Sk : forall k, k <> i -> s2 k = s1 k) by (intros k n; apply on_other; congruence).
  assert (Si : s2 i = set_granted m (s1 i)) by apply on_same.
  constructor.
  - intros k. destruct (Nat.eq_dec k i) as [->|n]; [|rewrite (Sk k n); apply (i_local _ _ _ K)]. rewrite Si. pose proof (i_local _ _ _ K i) as Li. destruct Li. constructor; assumption.
  - intros j p a R. assert (R' : reach ann fs' s1 j p a).
    { revert R. apply reach_mono; [intros k; destruct (Nat.eq_dec k i) as [->|n]; [rewrite Si|rewrite (Sk k n)]; auto| | |intros; apply tag_le_refl].
      - intros k j' p' a' o C1 C2 Hin. eapply R_msg; [| |exact Hin].
        + destruct (Nat.eq_dec k i) as [->|n]; [rewrite Si in C1|rewrite (Sk k n) in C1]; exact C1.
        + destruct (Nat.eq_dec j' i) as [->|n]; [rewrite Si in C2|rewrite (Sk j' n) in C2]; exact C2.
      - intros k a' _ A. exists a'. split; [apply tag_le_refl|]. left. destruct (Nat.eq_dec k i) as [->|n]; [rewrite Si in A|rewrite (Sk k n) in A]; exact A. }
    destruct (Nat.eq_dec j i) as [->|n]; [|rewrite (Sk j n); apply (i_reach _ _ _ K), R']. exfalso. pose proof (reach_port _ _ _ K _ _ _ R') as Np. apply (port_up _ _ Np Un).
  - intros e c D. apply (table_conn s1); [intros k; destruct (Nat.eq_dec k i) as [->|n]; [rewrite Si|rewrite (Sk k n)]; auto|]. apply (i_delays _ _ _ K). destruct (Nat.eq_dec e i) as [->|n]; [rewrite Si in D|rewrite (Sk e n) in D]; exact D.
  - intros e. destruct (Nat.eq_dec e i) as [->|n]; [|rewrite (Sk e n); apply (i_order _ _ _ K)]. rewrite Si. pose proof (i_order _ _ _ K i) as (O1 & O2 & O3). split; [exact O1|]. split; [exact O2|]. unfold strict_node. rewrite Un. discriminate.
Qed.
Lemma inv_take_ltc ann fs s i t rest : Inv ann fs s -> z_up (fs i) = ZLtc t :: rest -> Inv ann (upd fs i (zpop (fs i) (ZRem t :: rest))) (tag_complete tp start (fun _ => true) s i t).
Proof.
  intros H E. pose proof (tk_up ann fs s H i _ _ E) as U. cbn [up_ok] in U. pose proof (i_local _ _ _ H i) as L. apply (tag_complete_P tp start (fun s => Inv ann _ s)); [intros; apply inv_safe; assumption|].
  apply (inv_take ann fs s H i _ _ E [ZRem t] (on s i (set_completed t))); rewrite ?on_same; try reflexivity; [right; eauto|intros k n; apply on_other; congruence|apply L|apply L|intros g p K; apply (l_pend _ _ _ _ L _ _ K)|exact U|].
  intros a l _ Ho. cbn [okc app erase er flat_map r_completed r_next r_transit set_completed] in *. destruct Ho as (O1 & O2 & O3). pose proof (okc_now _ _ _ _ _ O3) as (O4 & O5). auto.
Qed.
Lemma inv_take_rem ann fs s i t rest : Inv ann fs s -> z_up (fs i) = ZRem t :: rest -> Inv ann (upd fs i (zpop (fs i) rest)) (on s i (fun n => set_transit (transit_remove t (r_transit n)) n)).
Proof.
  intros H E. pose proof (tk_up ann fs s H i _ _ E) as U. cbn [up_ok] in U. pose proof (i_local _ _ _ H i) as L.
  apply (inv_take ann fs s H i _ _ E [] (on s i (fun n => set_transit (transit_remove t (r_transit n)) n))); rewrite ?on_same; try reflexivity; [now left|intros k n; apply on_other; congruence|apply L| | |apply L|].
  - intros x Hx. cbn [r_transit set_transit] in Hx. apply remove_in in Hx. apply (l_transit _ _ _ _ L), Hx.
  - intros g p Hg. cbn [r_transit set_transit]. destruct (l_pend _ _ _ _ L _ _ Hg) as (F & K & Np). apply remove_in. split; [exact K|]. left. eapply ltc_lt; [exact L|exact F|apply (port_up _ _ Np)|exact U].
  - intros a l _ Ho. apply Ho.
Qed.
Lemma inv_take_resign ann fs s i rest : Inv ann fs s -> z_up (fs i) = ZResign :: rest -> Inv ann (upd fs i (zpop (fs i) rest)) (notify_downstream tp start (fun _ => true) (on s i (fun n => set_next FOREVER_TAG (set_connected false n))) i).
Proof.
  intros H E. pose proof (tk_up ann fs s H i _ _ E) as U. cbn [up_ok] in U. pose proof (i_local _ _ _ H i) as L. apply (notify_downstream_P tp start (fun s => Inv ann _ s)); [intros; apply inv_safe; assumption|].
  assert (Er : rest = []) by (apply (l_resign _ _ _ _ L [] rest); exact E). subst rest. set (s1 := on s i _).
  assert (Sk : forall k, k <> i -> s1 k = s k) by (intros k n; apply on_other; congruence).
  assert (Si : s1 i = set_next FOREVER_TAG (set_connected false (s i))) by (unfold s1; rewrite on_same; reflexivity).
  assert (Kc : forall k, r_connected (s1 k) = true -> r_connected (s k) = true) by (intros k; destruct (Nat.eq_dec k i) as [->|n]; [rewrite Si; discriminate|rewrite (Sk k n); auto]).
  assert (Ks : forall k, r_sent (s1 k) = r_sent (s k)) by (intros k; destruct (Nat.eq_dec k i) as [->|n]; [rewrite Si|rewrite (Sk k n)]; reflexivity).
  constructor.
  - intros k. destruct (Nat.eq_dec k i) as [->|n]; [rewrite upd_eq', Si|rewrite upd_neq', (Sk k n) by exact n; apply (i_local _ _ _ H)]. destruct L. constructor; try assumption; try discriminate.
    + intros m [].
    + intros l1 m l2 m' j p o o' K. destruct l1; discriminate.
    + intros l1 l2 K. destruct l1; discriminate.
    + intros _. split; [exact U|reflexivity].
    + right; right; reflexivity.
  - intros j p a R. pose proof (tk_reach ann fs s i _ _ E [] s1 (or_introl eq_refl) Kc Ks j p a R) as R0. destruct (i_reach _ _ _ H _ _ _ R0) as (F1 & F2 & F3). destruct (Nat.eq_dec j i) as [->|n]; [rewrite upd_eq', Si|rewrite upd_neq', (Sk j n) by exact n; auto].
    split; [exact F1|]. split; [exact F2|exact F3].
  - intros e c D. apply (table_conn s); [exact Kc|]. apply (i_delays _ _ _ H). destruct (Nat.eq_dec e i) as [->|n]; [rewrite Si in D|rewrite (Sk e n) in D]; exact D.
  - intros e. destruct (Nat.eq_dec e i) as [->|n]; [|rewrite (Sk e n); apply (i_order _ _ _ H)]. rewrite Si. eapply log_same; [apply (i_order _ _ _ H)| | |]; reflexivity.
Qed.

(** A message or an absence that goes nowhere. *)
Lemma inv_drop ann fs s i m rest : Inv ann fs s -> z_up (fs i) = m :: rest -> zann m <> None -> Inv ann (upd fs i (zpop (fs i) rest)) s.
Proof.
  intros H E Z. pose proof (i_local _ _ _ H i) as L. apply (inv_take ann fs s H i _ _ E [] s); try reflexivity; [now left|apply L|apply L|intros g p K; apply (l_pend _ _ _ _ L _ _ K)|apply L|].
  intros a l _ Ho. destruct m; try contradiction; cbn [erase app] in Ho; cbn [er flat_map app]; [apply Ho|exact Ho].
Qed.
Definition zdeliver (fs : nat -> zfed) (i : nat) (rest : list zmsg) (j p : nat) : nat -> zfed :=
  upd (upd fs i (zpop (fs i) rest)) j (padd (upd fs i (zpop (fs i) rest) j) p).
Lemma zdeliver_spec fs i rest j p : let fs' := zdeliver fs i rest j p in
  (forall k, k <> j -> k <> i -> fs' k = fs k) /\ (i <> j -> fs' i = zpop (fs i) rest /\ fs' j = padd (fs j) p) /\ (i = j -> fs' j = padd (zpop (fs i) rest) p).
Proof.
  intros fs'. unfold fs', zdeliver. split; [intros k n1 n2; rewrite !upd_neq' by assumption; reflexivity|]. split.
  - intros n. split; [rewrite upd_neq', upd_eq' by exact n; reflexivity|]. rewrite upd_eq', upd_neq' by congruence. reflexivity.
  - intros <-. rewrite !upd_eq'. reflexivity.
Qed.
Lemma inv_take_msg ann fs s s' i j p g o rest : Inv ann fs s -> z_up (fs i) = ZMsg j p g o :: rest -> r_connected (s j) = true -> forward tp start (fun _ => true) s j g = Some s' -> Inv ann (zdeliver fs i rest j p) s'.
Proof.
  intros H E C F. unfold forward in F. rewrite C in F. cbn [negb] in F. injection F as F.
  pose proof (tk_up ann fs s H i _ _ E) as U. cbn [up_ok] in U. destruct U as (So & Sg & Lo & q & Eq & Es & Eg). pose proof (i_local _ _ _ H j) as L. assert (Np : nth_error (pt j) p <> None) by congruence. pose proof (port_up _ _ Np) as Un.
  assert (Lc : tag_lt (r_completed (s j)) g).
  { assert (R : reach ann fs s j p g) by (eapply R_msg; [eapply tk_conn; eassumption|exact C|rewrite E; now left]). eapply ltc_lt; [exact L|apply (i_reach _ _ _ H _ _ _ R)|exact Un|apply (l_comp _ _ _ _ L)]. }
  set (s2 := if tag_compare (r_completed (on s j (add_sent (MMsg g)) j)) g <? 0 then on (on s j (add_sent (MMsg g))) j (fun n => set_transit (transit_insert g (r_transit n)) n) else on s j (add_sent (MMsg g))) in *.
  assert (Q : (forall k, k <> j -> s2 k = s k) /\ r_connected (s2 j) = r_connected (s j) /\ r_completed (s2 j) = r_completed (s j) /\ r_granted (s2 j) = r_granted (s j) /\ r_ptag (s2 j) = r_ptag (s j) /\
    r_delays (s2 j) = r_delays (s j) /\ r_sent (s2 j) = r_sent (s j) ++ [MMsg g] /\ r_transit (s2 j) = transit_insert g (r_transit (s j)) /\ r_next (s2 j) = r_next (s j)).
  { unfold s2. rewrite on_same. cbn [r_completed add_sent]. apply cmp_lt0 in Lc. rewrite Lc. rewrite !on_same. split; [intros k n; rewrite !on_other by congruence; reflexivity|]. do 7 (split; [reflexivity|]). reflexivity. }
  clearbody s2. destruct Q as (Q0 & Q1 & Q2 & Q3 & Q4 & Q5 & Q6 & Q7 & Q8).
  assert (T1 : forall t, In t (r_transit (s j)) -> In t (r_transit (s2 j))) by (intros t Ht; rewrite Q7; apply insert_in; now right).
  assert (T2 : forall t, In t (r_transit (s2 j)) -> small t) by (intros t Ht; rewrite Q7 in Ht; apply insert_in in Ht; destruct Ht as [->|Ht]; [exact Sg|apply (l_transit _ _ _ _ L), Ht]).
  assert (T3 : In g (r_transit (s2 j))) by (rewrite Q7; apply insert_in; now left).
  destruct (zdeliver_spec fs i rest j p) as (D1 & D2 & D3).
  destruct (tag_compare g (r_next (s2 j)) <? 0) eqn:T; subst s'.
  - apply cmp_lt0 in T. unfold update_fed_next. fold (min_tag (transit_peek (r_transit (s2 j))) g). set (m := min_tag _ _).
    assert (Mg : tag_le m g) by apply (proj2 (min_tag_le _ _)).
    apply (update_next_P tp start (fun s => Inv ann _ s)); [intros; apply inv_safe; assumption| |intros K; contradiction].
    eapply (inv_deliver ann fs s H i _ rest E _ _ j p q g o (MMsg g)); try (rewrite on_same; assumption); try eassumption; [left; auto|intros _; exact Eg| | | |].
    + intros k n. rewrite on_other by congruence. apply Q0, n.
    + rewrite on_same. right. apply (min_good tp start); [apply peek_good, T2|left; exact Sg].
    + rewrite on_same. cbn [r_next set_next]. rewrite <- Q8. eapply tag_le_trans; [exact Mg|apply tag_lt_le, T].
    + rewrite on_same. split; [exact T3|exact Mg].
  - apply cmp_lt0_false in T. eapply (inv_deliver ann fs s H i _ rest E _ _ j p q g o (MMsg g)); try eassumption; [left; auto|intros _; exact Eg| | |].
    + rewrite Q8. apply L.
    + rewrite Q8. apply tag_le_refl.
    + split; [exact T3|exact T].
Qed.
Lemma inv_take_absent ann fs s i j p g o rest : Inv ann fs s -> z_up (fs i) = ZAbsent j p g o :: rest -> r_connected (s j) = true -> Inv ann (zdeliver fs i rest j p) (on s j (add_sent (MAbsent g))).
Proof.
  intros H E C. pose proof (tk_up ann fs s H i _ _ E) as U. cbn [up_ok] in U. destruct U as (Sg & Lo & q & Eq & Es & Eg). pose proof (i_local _ _ _ H j) as L. destruct (zdeliver_spec fs i rest j p) as (D1 & D2 & D3).
  eapply (inv_deliver ann fs s H i _ rest E _ _ j p q g o (MAbsent g)); rewrite ?on_same; try reflexivity; try eassumption; [right; auto|intros k n; apply on_other; congruence|auto|apply L|apply L|apply tag_le_refl].
Qed.

(** ** Every execution *)
Lemma init_known l p : (forall q, nth_error l p = Some q -> PS.known q = NEVER_TAG) -> knownp (PS.boot false start l) p = NEVER_TAG.
Proof. intros K. unfold knownp. change (PS.ports (PS.boot false start l)) with l. destruct (nth_error l p) as [q|] eqn:E; [apply K; reflexivity|reflexivity]. Qed.
Lemma init_ports i : Forall PortStatusSpec.port_ok (pt i).
Proof. apply Forall_forall. intros q Hq. apply In_nth_error in Hq. destruct Hq as (p & E). apply (Hw i p q E). Qed.
Lemma inv_init : Inv (fun _ _ => NEVER_TAG) (init_zfed start pt) init_rti.
Proof.
  pose proof start_small as Ss.
  assert (AA : forall i a, zlact (init_zfed start pt i) init_node a -> small a).
  { intros i a (_ & [K|[(K & _)|[(_ & _ & K)|(p & K)]]]); [destruct K as [<-|[]]; exact Ss|discriminate|exact K|]. unfold pl in K. cbn in K. destruct K. }
  assert (Rs : forall j p a, reach (fun _ _ => NEVER_TAG) (init_zfed start pt) init_rti j p a -> tag_lt NEVER_TAG a).
  { intros j p a R. induction R as [k j p a o C1 C2 Hin|j p q a0 a' C1 C2 A E L1 L2 T|j p q p1 a0 a' C1 C2 R IH E L1 L2 T].
    - destruct Hin.
    - eapply tag_lt_le_trans; [exact L2|apply delayZ_le].
    - eapply tag_lt_le_trans; [exact L2|apply delayZ_le]. }
  constructor.
  - intros i. constructor; cbn [init_zfed z_failed z_alive z_up z_busy z_started z_queue z_dummy z_rcvd z_ports z_real init_rti init_node r_connected r_next r_completed r_transit r_sent]; try discriminate.
    + reflexivity.
    + apply AA.
    + intros m [].
    + intros l1 m l2 m' j p o o' K. destruct l1; discriminate.
    + intros l1 l2 K. destruct l1; discriminate.
    + now left.
    + intros t [].
    + intros _ a A. apply AA in A. pose proof (small_never tp start Hs a A) as N. split; [exact N|]. split; [apply tag_lt_le, N|exact Logic.I].
    + intros _ l1 j p g o l2 K. destruct l1; discriminate.
    + intros a [<-|[]]. cbn. apply (small_never tp start Hs), Ss.
    + intros a [].
    + split; [exact Ss|reflexivity].
    + left. split; reflexivity.
    + unfold ltc_ok. cbn. split; [tag_consts; unfold tag_ok; cbn; lia|]. split; [apply tag_le_refl|discriminate].
    + intros _. cbn [z_ps]. apply PSP.boot_inv; first [apply init_ports|apply Hs|clear - Hs; unfold in_int64; tag_consts; lia].
    + reflexivity.
    + reflexivity.
    + cbn. lia.
    + intros g p [].
    + intros g p [].
    + intros l1 x l2 g p K. destruct l1; discriminate.
    + intros l1 t l2 g K. destruct l1; discriminate.
    + intros l1 t l2 g K. destruct l1; discriminate.
    + intros t [].
    + intros t [].
  - intros j p a R. pose proof (Rs _ _ _ R) as N. split; [|split; [split; [exact N|split; [apply tag_lt_le, N|intros _; exact N]]|intros x []]].
    split; [apply tag_lt_le, N|]. split; [intros K; exfalso; apply (tag_lt_neq _ _ N); exact K|]. split; [intros _; exact N|]. intros _. cbn [init_zfed z_ps]. rewrite init_known; [exact N|]. intros q Eq. apply (Hw j p q Eq).
  - intros e c K. discriminate.
  - apply order_init.
Qed.

Lemma inv_step y o y' : Inv (y_ann y) (y_fed y) (y_rti y) -> ~ late y o -> zstep tp start pt index y o = Some y' -> Inv (y_ann y') (y_fed y') (y_rti y').
Proof.
  intros H Nl K. destruct o as [i t|i t|i t|i t|i j p|i j p|i ltc|i|i|i]; cbn [zstep] in K.
  - destruct (_ && _) eqn:B in K; [|discriminate]. injection K as <-. cbn [y_fed y_rti y_ann set_zfed]. rewrite !andb_true_iff in B. destruct B as (((B1 & B2) & B3) & B4).
    apply inv_net; [exact H|exact B1|apply negb_true_iff, B2| |].
    + apply orb_true_iff in B3. destruct B3 as [B3|B3]; [left; apply smallb_spec, B3|right; apply cmp_eq0, B3].
    + intros a Ha. rewrite forallb_forall in B4. apply cmp_le0, (B4 a Ha).
  - destruct (_ && _) eqn:B in K; [|discriminate]. injection K as <-. cbn [y_fed y_rti y_ann set_zfed]. rewrite !andb_true_iff in B. destruct B as (((B1 & B2) & B3) & B4). apply cmp_le0 in B3. apply smallb_spec in B2.
    assert (D : tag_lt (done (y_fed y i)) t) by (unfold done; destruct (z_started (y_fed y i)); cbn [negb orb] in B4; [apply cmp_lt0, B4|apply (small_never tp start Hs), B2]).
    apply (inv_queue _ _ _ H i B1 t t); [exact B2| |apply tag_le_refl|exact D|reflexivity]. split; [exact B1|right; right; left; auto].
  - destruct (_ && _) eqn:B in K; [|discriminate]. destruct (PS.step _ _ _ _) as [ps|] eqn:Ps in K; [|discriminate]. injection K as <-. cbn [y_fed y_rti y_ann set_zfed]. rewrite !andb_true_iff in B. destruct B as ((((B1 & B2) & B3) & B4) & B5).
    apply (inv_begin _ _ _ H i B1 t ps); [apply negb_true_iff, B2| | | |exact Ps].
    + apply existsb_exists in B3. destruct B3 as (x & Hx & Ex). apply cmp_eq0 in Ex. subst x. exact Hx.
    + intros a Ha. rewrite forallb_forall in B4. apply cmp_le0, (B4 a Ha).
    + destruct (tp_up tp i); [now left|right; apply cmp_le0, B5].
  - destruct (_ && _) eqn:B in K; [|discriminate]. injection K as <-. cbn [y_fed y_rti y_ann set_zfed]. rewrite !andb_true_iff in B. destruct B as ((((B1 & B2) & B3) & B4) & B5). apply smallb_spec in B4. apply cmp_lt0 in B5.
    assert (Hst : z_started (y_fed y i) = true) by (apply (l_busy _ _ _ _ (i_local _ _ _ H i)), B2).
    pose proof (inv_queue _ _ _ H i B1 t (zcur (y_fed y i)) true B4 (conj B1 (or_intror (or_introl (conj B2 (conj B3 eq_refl))))) (tag_lt_le _ _ B5)) as X. rewrite B2 in X. apply X; [unfold done; rewrite Hst; exact B5|symmetry; exact B3].
  - destruct (nth_error (pt j) p) as [q|] eqn:Eq in K; [|discriminate]. destruct (_ && _) eqn:B in K; [|discriminate]. injection K as <-. cbn [y_fed y_rti y_ann set_zfed set_ann]. rewrite !andb_true_iff in B. destruct B as ((((((B1 & B2) & B3) & B4) & B5) & B6) & B7).
    apply (inv_send _ _ _ H i B1 j p q); [exact B2|exact B3|exact Eq|apply Nat.eqb_eq, B4|apply cmp_lt0, B5|apply Z.ltb_lt, B6|apply smallb_spec, B7].
  - destruct (nth_error (pt j) p) as [q|] eqn:Eq in K; [|discriminate]. destruct (_ && _) eqn:B in K; [|discriminate]. injection K as <-. cbn [y_fed y_rti y_ann set_zfed set_ann]. rewrite !andb_true_iff in B. destruct B as (((((B1 & B2) & B4) & B5) & B6) & B7).
    apply (inv_absent _ _ _ H i B1 j p q); [exact B2|exact Eq|apply Nat.eqb_eq, B4|apply cmp_lt0, B5|apply Z.ltb_lt, B6|apply smallb_spec, B7].
  - destruct (_ && _) eqn:B in K; [|discriminate]. injection K as <-. cbn [y_fed y_rti y_ann set_zfed]. rewrite !andb_true_iff in B. destruct B as ((B1 & B2) & B3). apply inv_complete; [exact H|exact B1|exact B2|apply Z.eqb_eq, B3].
  - destruct (z_alive (y_fed y i)) eqn:B in K; [|discriminate]. injection K as <-. cbn [y_fed y_rti y_ann set_zfed]. apply inv_resign; [exact H|exact B].
  - destruct (z_alive (y_fed y i)) eqn:B in K; [|discriminate]. destruct (nth_error (r_sent (y_rti y i)) (z_rcvd (y_fed y i))) as [m|] eqn:En; [|discriminate].
    injection K as <-. cbn [y_fed y_rti y_ann set_zfed]. destruct m as [t|t|t|t]; [apply recv_tag|apply recv_ptag|apply recv_msg|apply recv_absent]; try assumption.
    intros p rest Ep. unfold late in Nl. cbn zeta in Nl. rewrite En, Ep in Nl. split; [intros X; apply Nl; left; exact X|]. intros q Eq X. apply Nl. right. eauto.
  - destruct (z_up (y_fed y i)) as [|m rest] eqn:Eu in K; [discriminate|]. pose proof (tk_conn _ _ _ H i _ _ Eu) as C.
    destruct m as [t|t|t|j p g o|j p g o|]; cbn [rti_step] in K; rewrite ?C in K.
    + injection K as <-. cbn [y_fed y_rti y_ann set_zfed]. apply inv_take_net; [exact H|exact Eu].
    + injection K as <-. cbn [y_fed y_rti y_ann set_zfed]. apply inv_take_ltc; [exact H|exact Eu].
    + injection K as <-. cbn [y_fed y_rti y_ann set_zfed]. apply inv_take_rem; [exact H|exact Eu].
    + destruct (forward _ _ _ _ _ _) as [s'|] eqn:F in K; [|discriminate]. injection K as <-. cbn [y_fed y_rti y_ann set_zfed]. unfold zforward. cbn [y_rti set_zfed]. destruct (r_connected (y_rti y j)) eqn:Cj.
      * cbn [y_fed y_ann set_zfed]. eapply inv_take_msg; [exact H|exact Eu|exact Cj|exact F].
      * unfold forward in F. rewrite Cj in F. injection F as <-. cbn [y_fed y_ann set_zfed]. eapply inv_drop; [exact H|exact Eu|discriminate].
    + cbn [andb] in K. unfold zforward in K. cbn [y_rti set_zfed] in K. destruct (r_connected (y_rti y j)) eqn:Cj in K; injection K as <-; cbn [y_fed y_rti y_ann set_zfed].
      * eapply inv_take_absent; [exact H|exact Eu|exact Cj].
      * eapply inv_drop; [exact H|exact Eu|discriminate].
    + injection K as <-. cbn [y_fed y_rti y_ann set_zfed]. apply inv_take_resign; [exact H|exact Eu].
Qed.
Lemma inv_run l : forall y y', Inv (y_ann y) (y_fed y) (y_rti y) -> timely tp start pt index y l -> zrun tp start pt index y l = Some y' -> Inv (y_ann y') (y_fed y') (y_rti y').
Proof.
  induction l as [|o l IH]; intros y y' H T K; cbn [zrun] in K; [injection K as <-; exact H|]. cbn [timely] in T. destruct T as (T1 & T2). destruct (zstep tp start pt index y o) as [y1|] eqn:E1; [|discriminate]. eapply IH; [eapply inv_step; eassumption|exact T2|exact K].
Qed.
End Zero.

(** ** Deciding [timely] *)
Definition lateb (y : zsys) (o : zop) : bool :=
  match o with
  | YRecv i =>
    let f := y_fed y i in
    match nth_error (r_sent (y_rti y i)) (z_rcvd f), z_ports f with
    | Some (MAbsent t), p :: _ => tag_ltb t (zcur f) || match nth_error (PS.ports (z_ps f)) p with Some q => tag_eqb (PS.known q) t | None => false end
    | _, _ => false
    end
  | _ => false
  end.
Lemma lateb_spec y o : lateb y o = false -> ~ late y o.
Proof.
  unfold lateb, late. destruct o; auto. cbn zeta. destruct (nth_error (r_sent (y_rti y i)) (z_rcvd (y_fed y i))) as [[t|t|t|t]|]; auto. destruct (z_ports (y_fed y i)) as [|p l]; auto.
  intros B. apply orb_false_iff in B. destruct B as (B1 & B2). intros [K|(q & Eq & K)].
  - apply cmp_lt0 in K. unfold tag_ltb in B1. congruence.
  - rewrite Eq in B2. subst t. unfold tag_eqb in B2. assert (X : tag_compare (PS.known q) (PS.known q) =? 0 = true) by (apply cmp_eq0; reflexivity). congruence.
Qed.
Fixpoint timelyb (tp : topo) (start : Z) (pt : nat -> list PS.port) (index : nat -> nat -> Z) (y : zsys) (l : list zop) : bool :=
  match l with
  | [] => true
  | o :: l => negb (lateb y o) && match zstep tp start pt index y o with Some y => timelyb tp start pt index y l | None => true end
  end.
Lemma timelyb_spec tp start pt index l : forall y, timelyb tp start pt index y l = true -> timely tp start pt index y l.
Proof.
  induction l as [|o l IH]; intros y B; cbn [timelyb timely] in *; [exact Logic.I|]. apply andb_true_iff in B. destruct B as (B1 & B2). split; [apply lateb_spec, negb_true_iff, B1|]. destruct (zstep tp start pt index y o); [apply IH, B2|exact Logic.I].
Qed.

(** What has been forwarded and has not arrived has a port. *)
Lemma in_attach l : forall ps m, length ps = nann l -> In m l -> is_ann m = true -> exists p, In (m, p) (attach l ps).
Proof.
  induction l as [|x l IH]; intros ps m E Hin Im; [destruct Hin|]. cbn [attach]. unfold nann in E. cbn [filter] in E. destruct Hin as [->|Hin].
  - rewrite Im in *. destruct ps as [|p ps]; [discriminate|]. exists p. now left.
  - destruct (is_ann x) eqn:Ix.
    + destruct ps as [|p ps]; [discriminate|]. injection E as E. destruct (IH ps m E Hin Im) as (p' & K). exists p'. now right.
    + destruct (IH ps m E Hin Im) as (p' & K). exists p'. now right.
Qed.
