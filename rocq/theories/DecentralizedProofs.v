(** Proofs about decentralized coordination. *)
From Verif Require Import Base Tag TagSpec TagProofs RtiDelays Rti Federation Pqueue Decentralized DecentralizedSpec.
From Verif Require PortStatus PortStatusSpec PortStatusProofs FedDataProofs RtiProofs.
From Coq Require Import Permutation.
Local Open Scope Z_scope.
Module PS := PortStatus.
Module PP := PortStatusProofs.

Definition eqb_spec := FedDataProofs.tag_eqb_spec.
Definition leb_spec := FedDataProofs.leb_spec.
Definition ltb_spec := FedDataProofs.ltb_spec.
Lemma ltb_false a b : tag_ltb a b = false <-> tag_le b a.
Proof. rewrite <- tag_not_lt, <- ltb_spec. destruct (tag_ltb a b); split; congruence. Qed.
Lemma leb_false a b : tag_leb a b = false <-> tag_lt b a.
Proof. rewrite <- tag_not_le, <- leb_spec. destruct (tag_leb a b); split; congruence. Qed.
Lemma eqb_false a b : tag_eqb a b = false <-> a <> b.
Proof. rewrite <- eqb_spec. destruct (tag_eqb a b); split; congruence. Qed.
Lemma eqb_refl a : tag_eqb a a = true.
Proof. now apply eqb_spec. Qed.

Ltac split_all := repeat match goal with H : _ /\ _ |- _ => destruct H end.
Ltac booly :=
  repeat match goal with
  | H : (_ && _)%bool = true |- _ => apply andb_true_iff in H; destruct H
  | H : negb _ = true |- _ => apply negb_true_iff in H
  | H : negb _ = false |- _ => apply negb_false_iff in H
  | H : (_ <=? _) = true |- _ => apply Z.leb_le in H
  | H : (_ <? _) = true |- _ => apply Z.ltb_lt in H
  | H : (_ =? _) = true |- _ => apply Z.eqb_eq in H
  | H : tag_ltb _ _ = true |- _ => apply ltb_spec in H
  | H : tag_leb _ _ = true |- _ => apply leb_spec in H
  | H : tag_eqb _ _ = true |- _ => apply eqb_spec in H
  end.

(** Port tables up to what is known *)
Definition strip (q : PS.port) : PS.port := PS.set_known q NEVER_TAG.
Lemma strip_replace l : forall i q t, nth_error l i = Some q -> map strip (PS.replace l i (PS.set_known q t)) = map strip l.
Proof.
  induction l as [|x l IH]; intros [|i] q t E; cbn in *; try discriminate.
  - injection E as ->. reflexivity.
  - f_equal. now apply IH.
Qed.
Lemma strip_nth l l' p q : map strip l' = map strip l -> nth_error l p = Some q -> exists q', nth_error l' p = Some q' /\ strip q' = strip q.
Proof.
  intros E En. assert (K : nth_error (map strip l') p = Some (strip q)) by (rewrite E, nth_error_map, En; reflexivity).
  rewrite nth_error_map in K. destruct (nth_error l' p) as [q'|]; [|discriminate]. exists q'. split; [reflexivity|]. cbn in K. congruence.
Qed.
Lemma strip_eq q q' : strip q' = strip q -> PS.physical q' = PS.physical q /\ PS.level q' = PS.level q /\ PS.delay q' = PS.delay q /\ PS.source q' = PS.source q.
Proof. unfold strip, PS.set_known. intros E. injection E as E1 E2 E3 E4 E5. auto. Qed.

Lemma bump_ok t : tag_ok t -> tag_ok (bump t).
Proof. apply PP.bump_ok. Qed.
Lemma bump_time t : ttime (bump t) = ttime t.
Proof. reflexivity. Qed.
Lemma bump_room t : tag_ok t -> tmicro t < UINT_MAX -> tmicro (bump t) = tmicro t + 1.
Proof. intros Ht Hm. unfold bump. cbn [tmicro]. apply Z.mod_small. tag_consts; lia. Qed.
Lemma bump_cases t : tag_ok t -> (tmicro t < UINT_MAX /\ bump t = mkTag (ttime t) (tmicro t + 1)) \/ (tmicro t = UINT_MAX /\ bump t = mkTag (ttime t) 0).
Proof.
  intros Ht. unfold bump. destruct (Z.eq_dec (tmicro t) UINT_MAX) as [E|E].
  - right. split; [exact E|]. rewrite E. reflexivity.
  - left. split; [tag_consts; lia|]. f_equal. apply Z.mod_small. tag_consts; lia.
Qed.

Section S.
Variable start sta : Z.
Variable staa index : nat -> Z.
Variable ports0 : list PS.port.
Hypothesis Hcfg : config_ok start sta staa index ports0.
Notation st0 := (mkTag start 0).
Notation dstep := (dstep start sta staa index).

Lemma bump_start t : tag_ok t -> tag_le st0 t -> tag_le st0 (bump t).
Proof. intros Ht Hs. destruct (bump_cases t Ht) as [[_ ->]|[_ ->]]; tag_consts; lia. Qed.

Definition lim (ps : PS.fed) : Z := fold_left (PS.level_of_port true start ps) (PS.ports ps) PS.INT_MAX.

(** One call of [update_port] and its kin *)
Definition chg (ps ps' : PS.fed) : Prop :=
  PS.cur ps' = PS.cur ps /\ map strip (PS.ports ps') = map strip (PS.ports ps) /\ (ps' = ps \/ PS.mlaa ps' = lim ps').
Lemma chg_trans a b c : chg a b -> chg b c -> chg a c.
Proof. intros (A1 & A2 & A3) (B1 & B2 & [B3|B3]); [subst c; repeat split; auto|]. repeat split; try congruence. now right. Qed.

Lemma update_chg ps t i ps' : PS.update_port true start ps t i = Some ps' -> chg ps ps'.
Proof.
  unfold PS.update_port. intros E. destruct (nth_error (PS.ports ps) i) as [q|] eqn:En; [|discriminate].
  cbn zeta in E. destruct (0 <=? _) in E; injection E as <-.
  - split; [reflexivity|]. split; [|right; reflexivity]. cbn [PS.update_max_level PS.set_mlaa PS.set_ports PS.ports]. now apply strip_replace.
  - split; [reflexivity|]. split; [reflexivity|]. now left.
Qed.
Lemma gone_from_chg f l : forall ps i ps', PS.gone_from true start ps f l i = Some ps' -> chg ps ps'.
Proof.
  induction l as [|q l IH]; intros ps i ps' E; cbn [PS.gone_from] in E.
  - injection E as <-. split; [reflexivity|]. split; [reflexivity|now left].
  - destruct (PS.source q =? f)%nat; [|now apply (IH _ _ _ E)].
    destruct (PS.update_port true start ps FOREVER_TAG i) as [ps1|] eqn:U; [|discriminate].
    eapply chg_trans; [now apply (update_chg _ _ _ _ U)|now apply (IH _ _ _ E)].
Qed.
Lemma pstep_chg ps o ps' : match o with PS.OTag _ | PS.OPtag _ | PS.OAdvance _ => False | _ => True end ->
  PS.step true start ps o = Some ps' -> chg ps ps'.
Proof.
  destruct o; try contradiction; intros _ E; cbn [PS.step] in E.
  - now apply update_chg in E.
  - destruct (nth_error (PS.ports ps) i); [|discriminate]. now apply update_chg in E.
  - now apply update_chg in E.
  - now apply update_chg in E.
  - unfold PS.gone in E. now apply gone_from_chg in E.
Qed.

(** What the code knows about a port after an update *)
Lemma known_update ps t i ps' j q : PS.update_port true start ps t i = Some ps' -> nth_error (PS.ports ps) j = Some q ->
  exists q', nth_error (PS.ports ps') j = Some q' /\ strip q' = strip q /\
    PS.known q' = if (i =? j)%nat then PP.absorb (PP.later t (PS.cur ps)) (PS.known q) else PS.known q.
Proof.
  intros E Eq. destruct (update_chg _ _ _ _ E) as (_ & Es & _). destruct (strip_nth _ _ _ _ Es Eq) as (q' & E' & S').
  exists q'. split; [exact E'|]. split; [exact S'|].
  destruct (PP.update_port_known _ _ _ _ _ _ E) as (_ & _ & K). specialize (K j). unfold PortStatusSpec.known_at in K. rewrite E', Eq in K. cbn [option_map] in K.
  destruct (i =? j)%nat; congruence.
Qed.
Lemma known_gone ps f ps' j q : PS.gone true start ps f = Some ps' -> nth_error (PS.ports ps) j = Some q ->
  exists q', nth_error (PS.ports ps') j = Some q' /\ strip q' = strip q /\
    PS.known q' = if (PS.source q =? f)%nat then PP.absorb (PP.later FOREVER_TAG (PS.cur ps)) (PS.known q) else PS.known q.
Proof.
  unfold PS.gone. intros E Eq. destruct (gone_from_chg _ _ _ _ _ E) as (_ & Es & _). destruct (strip_nth _ _ _ _ Es Eq) as (q' & E' & S').
  exists q'. split; [exact E'|]. split; [exact S'|].
  destruct (PP.gone_from_known _ _ _ _ _ _ _ E) as (_ & _ & K). specialize (K j). unfold PortStatusSpec.known_at in K. rewrite E', Eq in K. cbn [option_map] in K.
  rewrite Nat.sub_0_r, Eq in K. cbn [Nat.leb andb] in K. destruct (PS.source q =? f)%nat; congruence.
Qed.

Definition eff (ph : phase) (ps : PS.fed) : tag := match ph with Waiting => st0 | _ => PS.cur ps end.
Definition at_tag (ps : PS.fed) (c : tag) : PS.fed := PS.mkFed (PS.ports ps) c (PS.last_grant ps) (PS.provisional ps) (PS.mlaa ps).
(** A port that may hold back its reactions *)
Definition open_at (ps : PS.fed) (c : tag) (q : PS.port) : Prop :=
  PS.physical q = false /\ tag_lt (PS.known q) c /\ PS.skipped true start (at_tag ps c) q = false.

Record Gps (ph : phase) (ps : PS.fed) : Prop := mkGps {
  g_strip : map strip (PS.ports ps) = map strip ports0;
  g_cur : match ph with Waiting => PS.cur ps = mkTag (start - sta) 0 | Starting => PS.cur ps = st0 | Running => True end;
  g_ok : tag_ok (eff ph ps) /\ tag_le st0 (eff ph ps) /\ ttime (eff ph ps) < FOREVER;
  g_known : forall j q, nth_error (PS.ports ps) j = Some q -> tag_ok (PS.known q) /\ (PS.known q = NEVER_TAG \/ tag_le st0 (PS.known q));
  g_lim : forall j q, nth_error (PS.ports ps) j = Some q -> open_at ps (eff ph ps) q -> PS.mlaa ps <= PS.level q;
  g_some : PS.mlaa ps = PS.INT_MAX \/
    exists j q, nth_error (PS.ports ps) j = Some q /\ PS.physical q = false /\ tag_lt (PS.known q) (eff ph ps) /\ PS.level q = PS.mlaa ps }.

Lemma port0 ps j q : map strip (PS.ports ps) = map strip ports0 -> nth_error (PS.ports ps) j = Some q ->
  exists q0, nth_error ports0 j = Some q0 /\ strip q = strip q0.
Proof. intros E Eq. symmetry in E. destruct (strip_nth _ _ _ _ E Eq) as (q0 & E0 & S0). exists q0. split; [exact E0|now symmetry]. Qed.
Lemma port_facts ps j q : map strip (PS.ports ps) = map strip ports0 -> nth_error (PS.ports ps) j = Some q ->
  0 <= PS.level q < 65536 /\ in_int64 (PS.delay q) /\ PS.delay q < FOREVER /\ PS.level q <= index j /\ (PS.delay q = NEVER \/ 0 <= PS.delay q).
Proof.
  intros E Eq. destruct (port0 _ _ _ E Eq) as (q0 & E0 & S0). destruct (strip_eq _ _ S0) as (_ & -> & -> & _).
  destruct Hcfg as (_ & _ & _ & _ & H). destruct (H j q0 E0) as ((_ & A & B & C) & _ & D & F). auto.
Qed.
Lemma levels_ok ps : map strip (PS.ports ps) = map strip ports0 -> Forall (fun q => 0 <= PS.level q < 65536) (PS.ports ps).
Proof. intros E. apply Forall_forall. intros q Hq. apply In_nth_error in Hq. destruct Hq as (j & Hj). now apply (port_facts ps j q E Hj). Qed.

Lemma start_facts : 0 <= start < FOREVER /\ 0 <= sta <= start /\ tag_ok st0.
Proof. destruct Hcfg as (A & B & C & _). repeat split; try lia; cbn [ttime tmicro]; tag_consts; lia. Qed.

(** At the start tag only ports without delay hold back reactions. *)
Lemma skipped_start ps q : in_int64 (PS.delay q) -> PS.delay q = NEVER \/ 0 <= PS.delay q ->
  PS.skipped true start (at_tag ps st0) q = false -> PS.delay q = NEVER.
Proof.
  intros Hd [D|D]; [auto|]. unfold PS.skipped, at_tag. cbn [PS.cur ttime tmicro andb]. destruct start_facts as (F1 & F2 & F3).
  destruct (Z.eq_dec (PS.delay q) 0) as [Z0|Z0].
  - rewrite Z0. change (0 =? 0) with true. rewrite (Z.eqb_refl start). cbn [andb orb]. discriminate.
  - replace (PS.delay q =? 0) with false by lia. replace (0 <? PS.delay q) with true by lia. cbn [andb orb].
    intros K. exfalso. apply Z.leb_gt in K. assert (L : tag_le st0 (delay_strict st0 (PS.delay q))); [|apply tag_compare_le in L; lia].
    unfold delay_strict, delay_tag. cbn [ttime tmicro]. replace (start =? NEVER) with false by (tag_consts; lia). replace (PS.delay q <? 0) with false by lia. cbn [orb].
    destruct (FOREVER - PS.delay q <=? start) eqn:C; [cbn [ttime FOREVER_TAG]; repeat case_if; tag_consts; lia|].
    replace (PS.delay q =? 0) with false by lia. cbn [ttime]. repeat case_if; tag_consts; lia.
Qed.
Lemma skipped_never ps c q : PS.delay q = NEVER -> PS.skipped true start (at_tag ps c) q = false.
Proof. intros E. unfold PS.skipped. rewrite E. reflexivity. Qed.

Lemma open_blocks ph ps j q : map strip (PS.ports ps) = map strip ports0 ->
  match ph with Waiting => PS.cur ps = mkTag (start - sta) 0 | Starting => PS.cur ps = st0 | Running => True end ->
  (PS.known q = NEVER_TAG \/ tag_le st0 (PS.known q)) ->
  nth_error (PS.ports ps) j = Some q -> open_at ps (eff ph ps) q -> PP.blocks true start ps q = true.
Proof.
  intros E Hc Hk Eq (O1 & O2 & O3). unfold PP.blocks. rewrite O1. cbn [negb]. rewrite andb_true_r.
  destruct ph; cbn [eff] in *.
  - destruct (port_facts _ _ _ E Eq) as (_ & D1 & _ & _ & D2). pose proof (skipped_start _ _ D1 D2 O3) as Dn.
    pose proof (skipped_never ps (PS.cur ps) q Dn) as Sk. unfold PS.skipped, at_tag in Sk. cbn [PS.cur] in Sk. unfold PS.skipped. rewrite Sk. cbn [negb andb].
    apply RtiProofs.cmp_gt0. rewrite Hc. destruct Hk as [Hk|Hk]; [|exfalso; revert Hk O2; tag_consts; lia].
    rewrite Hk. destruct start_facts as (F1 & F2 & F3). tag_consts; lia.
  - unfold PS.skipped, at_tag in O3. cbn [PS.cur] in O3. unfold PS.skipped. rewrite O3. cbn [negb andb]. now apply RtiProofs.cmp_gt0.
  - unfold PS.skipped, at_tag in O3. cbn [PS.cur] in O3. unfold PS.skipped. rewrite O3. cbn [negb andb]. now apply RtiProofs.cmp_gt0.
Qed.
Definition fine (t : tag) : Prop := tag_ok t /\ tag_le st0 t.
Lemma fine_bump t : fine t -> fine (bump t).
Proof. intros [A B]. split; [now apply bump_ok|now apply bump_start]. Qed.
Lemma later_ge t c : tag_le t (PP.later t c).
Proof. unfold PP.later. destruct (tag_compare t c <? 0) eqn:E; [|apply tag_le_refl]. apply tag_lt_le. now apply RtiProofs.cmp_lt0. Qed.
Lemma later_cases t c : (PP.later t c = t /\ tag_le c t) \/ (PP.later t c = c /\ tag_lt t c).
Proof. unfold PP.later. destruct (tag_compare t c <? 0) eqn:E; [right; split; [reflexivity|now apply RtiProofs.cmp_lt0]|left; split; [reflexivity|now apply RtiProofs.cmp_lt0_false]]. Qed.
Lemma absorb_cases t a : (tag_lt t a /\ PP.absorb t a = a) \/ (t = a /\ PP.absorb t a = bump t) \/ (tag_lt a t /\ PP.absorb t a = t).
Proof.
  unfold PP.absorb. destruct (tag_compare t a <? 0) eqn:E; [left; split; [now apply RtiProofs.cmp_lt0|reflexivity]|].
  destruct (tag_compare t a =? 0) eqn:E2; [right; left; split; [apply tag_compare_eq; lia|reflexivity]|].
  right. right. split; [|reflexivity]. apply RtiProofs.cmp_lt0_false in E. apply Z.eqb_neq in E2. apply tag_le_lt_or_eq in E. destruct E as [E|E]; [exact E|]. exfalso. apply E2. now apply tag_compare_eq.
Qed.

Lemma Gps_chg ph ps ps' : Gps ph ps -> chg ps ps' ->
  (forall j q, nth_error (PS.ports ps') j = Some q -> tag_ok (PS.known q) /\ (PS.known q = NEVER_TAG \/ tag_le st0 (PS.known q))) ->
  Gps ph ps'.
Proof.
  intros [G1 G2 G3 G4 G5 G6] (C1 & C2 & C3) K.
  assert (Ee : eff ph ps' = eff ph ps) by (destruct ph; cbn [eff]; congruence).
  destruct C3 as [->|C3]; [now constructor|].
  assert (Es : map strip (PS.ports ps') = map strip ports0) by congruence.
  assert (Ec : match ph with Waiting => PS.cur ps' = mkTag (start - sta) 0 | Starting => PS.cur ps' = st0 | Running => True end) by (destruct ph; congruence || exact Logic.I).
  pose proof (PP.fold_levels true start ps' (PS.ports ps') PS.INT_MAX (Z.le_refl _) (levels_ok _ Es)) as F. cbn zeta in F. fold (lim ps') in F. destruct F as (_ & F2 & F3).
  constructor; try assumption.
  - now rewrite Ee.
  - intros j q Eq O. rewrite C3. apply F2; [now apply nth_error_In in Eq|]. exact (open_blocks ph ps' j q Es Ec (proj2 (K j q Eq)) Eq O).
  - rewrite C3. destruct F3 as [F3|(q & F3 & F4 & F5)]; [now left|]. right. apply In_nth_error in F3. destruct F3 as (j & F3). exists j, q.
    unfold PP.blocks in F4. booly. apply Z.ltb_lt, RtiProofs.cmp_gt0 in H0. split; [exact F3|]. split; [assumption|]. split; [|assumption].
    destruct ph; cbn [eff]; try assumption. rewrite Ec in H0. destruct start_facts as (B1 & B2 & B3). revert H0. tag_consts; lia.
Qed.

Lemma Gps_update ph ps t i ps' : Gps ph ps -> fine t -> PS.update_port true start ps t i = Some ps' -> Gps ph ps'.
Proof.
  intros G [Ht Hs] E. apply (Gps_chg ph ps); [exact G|now apply update_chg in E|].
  intros j q' E'. destruct (update_chg _ _ _ _ E) as (_ & Es & _). symmetry in Es. destruct (strip_nth _ _ _ _ Es E') as (q & Eq & _).
  destruct (known_update _ _ _ _ _ _ E Eq) as (q2 & E2 & _ & K). assert (q2 = q') by congruence. subst q2. rewrite K.
  pose proof (g_known _ _ G j q Eq) as [K1 K2]. destruct (i =? j)%nat; [|now split].
  assert (L : fine (PP.later t (PS.cur ps))).
  { split; [|eapply tag_le_trans; [exact Hs|apply later_ge]]. destruct (later_cases t (PS.cur ps)) as [[-> _]|[-> L]]; [exact Ht|].
    destruct G as [_ Gc Go _ _ _]. destruct ph; cbn [eff] in *; try apply Go. rewrite Gc in L |- *. destruct start_facts as (B1 & B2 & B3). tag_consts; lia. }
  destruct (absorb_cases (PP.later t (PS.cur ps)) (PS.known q)) as [[_ ->]|[[_ ->]|[_ ->]]]; [now split| |].
  - destruct (fine_bump _ L). auto.
  - destruct L. auto.
Qed.
Lemma forever_fine : fine FOREVER_TAG.
Proof. destruct start_facts as (B1 & B2 & B3). split; tag_consts; lia. Qed.
Lemma Gps_gone ph f l : forall ps i ps', Gps ph ps -> PS.gone_from true start ps f l i = Some ps' -> Gps ph ps'.
Proof.
  induction l as [|q l IH]; intros ps i ps' G E; cbn [PS.gone_from] in E; [now injection E as <-|].
  destruct (PS.source q =? f)%nat; [|now apply (IH _ _ _ G E)].
  destruct (PS.update_port true start ps FOREVER_TAG i) as [ps1|] eqn:U; [|discriminate].
  apply (IH ps1 (S i)); [|exact E]. apply (Gps_update ph ps FOREVER_TAG i ps1 G forever_fine U).
Qed.
Lemma cur_fine ph ps t : Gps ph ps -> fine t -> tag_le t (PS.cur ps) -> fine (PS.cur ps).
Proof.
  intros G [Ht Hs] L. split; [|now apply (tag_le_trans _ t)]. destruct G as [_ Gc Go _ _ _]. destruct ph; cbn [eff] in *; try apply Go.
  rewrite Gc. destruct start_facts as (B1 & B2 & B3). tag_consts; lia.
Qed.
Lemma actual_fine ph ps t j q : Gps ph ps -> fine t -> nth_error (PS.ports ps) j = Some q -> fine (PS.actual_tag true ps t q).
Proof.
  intros G Ht Eq. unfold PS.actual_tag. cbn [andb]. destruct (tag_compare t (PS.cur ps) <=? 0) eqn:E; [|exact Ht].
  apply RtiProofs.cmp_le0 in E. pose proof (cur_fine ph ps t G Ht E) as Fc.
  pose proof (fine_bump _ Fc) as Fb. change (mkTag (ttime (PS.cur ps)) ((tmicro (PS.cur ps) + 1) mod two32)) with (bump (PS.cur ps)).
  destruct (tag_compare _ (PS.known q) <=? 0) eqn:E2; [|exact Fb]. change (fine (bump (PS.known q))). apply fine_bump.
  apply RtiProofs.cmp_le0 in E2. destruct (g_known _ _ G j q Eq) as [K1 [K2|K2]]; [|now split]. exfalso. rewrite K2 in E2. destruct Fb as [_ Fb]. destruct start_facts as (B1 & B2 & B3). revert E2 Fb. tag_consts. lia.
Qed.
Lemma Gps_later ph ps t i ps' : Gps ph ps -> fine t -> PS.step true start ps (PS.OMessageLater i t) = Some ps' -> Gps ph ps'.
Proof.
  intros G Ht E. cbn [PS.step] in E. destruct (nth_error (PS.ports ps) i) as [q|] eqn:Eq; [|discriminate].
  apply (Gps_update ph ps (PS.actual_tag true ps t q) i ps' G); [now apply (actual_fine ph ps t i q)|exact E].
Qed.

(** Known by popping *)
Lemma pop_fold x : forall ps, PS.cur (fold_left pop_known x ps) = PS.cur ps /\
  map strip (PS.ports (fold_left pop_known x ps)) = map strip (PS.ports ps) /\
  forall j q, nth_error (PS.ports ps) j = Some q -> exists q', nth_error (PS.ports (fold_left pop_known x ps)) j = Some q' /\ strip q' = strip q /\
    (PS.known q' = PS.known q \/ (PS.known q' = PS.cur ps /\ tag_lt (PS.known q) (PS.cur ps) /\ exists y, In y x /\ x_port y = j /\ x_violation y = true)).
Proof.
  induction x as [|y x IH]; intros ps; cbn [fold_left].
  - split; [reflexivity|]. split; [reflexivity|]. intros j q E. exists q. auto.
  - set (ps1 := pop_known ps y).
    assert (A : PS.cur ps1 = PS.cur ps /\ map strip (PS.ports ps1) = map strip (PS.ports ps) /\
      forall j q, nth_error (PS.ports ps) j = Some q -> exists q', nth_error (PS.ports ps1) j = Some q' /\ strip q' = strip q /\
       (PS.known q' = PS.known q \/ (PS.known q' = PS.cur ps /\ tag_lt (PS.known q) (PS.cur ps) /\ x_port y = j /\ x_violation y = true))).
    { unfold ps1, pop_known. destruct (x_violation y) eqn:V; [|split; [reflexivity|]; split; [reflexivity|]; intros j q E; exists q; auto].
      destruct (nth_error (PS.ports ps) (x_port y)) as [q0|] eqn:E0; [|split; [reflexivity|]; split; [reflexivity|]; intros j q E; exists q; auto].
      destruct (tag_ltb (PS.known q0) (PS.cur ps)) eqn:L; [|split; [reflexivity|]; split; [reflexivity|]; intros j q E; exists q; auto].
      split; [reflexivity|]. cbn [PS.set_ports PS.ports PS.cur]. split; [now apply strip_replace|]. intros j q E. rewrite PP.nth_replace.
      destruct (Nat.eqb_spec (x_port y) j) as [Ej|n]; [|exists q; auto]. subst j. rewrite E0. assert (q = q0) by congruence. subst q.
      eexists. split; [reflexivity|]. split; [reflexivity|]. right. apply ltb_spec in L. auto. }
    destruct A as (A1 & A2 & A3). destruct (IH ps1) as (B1 & B2 & B3). split; [congruence|]. split; [congruence|].
    intros j q E. destruct (A3 j q E) as (q1 & E1 & S1 & K1). destruct (B3 j q1 E1) as (q2 & E2 & S2 & K2). exists q2. split; [exact E2|]. split; [congruence|].
    destruct K2 as [K2|(K2 & K3 & z & Z1 & Z2 & Z3)].
    + rewrite K2. destruct K1 as [K1|(K1 & K4 & K5 & K6)]; [now left|]. right. split; [exact K1|]. split; [exact K4|]. exists y. split; [now left|auto].
    + destruct K1 as [K1|(K1 & K4 & K5 & K6)]; right.
      * rewrite A1 in *. rewrite K1 in K3. split; [exact K2|]. split; [exact K3|]. exists z. split; [now right|auto].
      * rewrite A1 in *. split; [congruence|]. split; [exact K4|]. exists z. split; [now right|auto].
Qed.

Lemma Gps_enter ps n x : Gps Running ps -> fine n -> ttime n < FOREVER ->
  let ps2 := fold_left pop_known x (PS.update_max_level true start (PS.mkFed (PS.ports ps) n (PS.last_grant ps) (PS.provisional ps) (PS.mlaa ps)) (PS.last_grant ps) (PS.provisional ps)) in
  Gps Running (PS.update_max_level true start ps2 (PS.last_grant ps2) (PS.provisional ps2)).
Proof.
  intros G [N1 N2] N3 ps2. destruct (pop_fold x (PS.update_max_level true start (PS.mkFed (PS.ports ps) n (PS.last_grant ps) (PS.provisional ps) (PS.mlaa ps)) (PS.last_grant ps) (PS.provisional ps))) as (A1 & A2 & A3).
  fold ps2 in A1, A2, A3. cbn [PS.update_max_level PS.set_mlaa PS.cur PS.ports] in A1, A2, A3.
  assert (K : forall j q, nth_error (PS.ports ps2) j = Some q -> tag_ok (PS.known q) /\ (PS.known q = NEVER_TAG \/ tag_le st0 (PS.known q))).
  { intros j q Eq. symmetry in A2. destruct (strip_nth _ _ _ _ A2 Eq) as (q0 & E0 & _). destruct (A3 j q0 E0) as (q1 & E1 & _ & K1). assert (q1 = q) by congruence. subst q1.
    destruct K1 as [->|[-> _]]; [now apply (g_known _ _ G j)|auto]. }
  set (ps3 := PS.update_max_level true start ps2 (PS.last_grant ps2) (PS.provisional ps2)).
  pose proof (g_strip _ _ G) as Gs.
  assert (Es : map strip (PS.ports ps3) = map strip ports0) by (cbn [ps3 PS.update_max_level PS.set_mlaa PS.ports]; congruence).
  assert (M3 : PS.mlaa ps3 = lim ps3) by reflexivity. assert (C3 : PS.cur ps3 = n) by exact A1.
  pose proof (PP.fold_levels true start ps3 (PS.ports ps3) PS.INT_MAX (Z.le_refl _) (levels_ok _ Es)) as F. cbn zeta in F. fold (lim ps3) in F. destruct F as (_ & F2 & F3).
  constructor; cbn [eff]; try assumption.
  - exact Logic.I.
  - rewrite C3. auto.
  - intros j q Eq O. rewrite M3. apply F2; [now apply nth_error_In in Eq|]. apply (open_blocks Running ps3 j q Es Logic.I); [|exact Eq|exact O]. apply (K j q Eq).
  - rewrite M3. destruct F3 as [F3|(q & F3 & F4 & F5)]; [now left|]. right. apply In_nth_error in F3. destruct F3 as (j & F3). exists j, q.
    unfold PP.blocks in F4. booly. apply Z.ltb_lt, RtiProofs.cmp_gt0 in H0. auto.
Qed.
Definition delay_fine (q : PS.port) : Prop := in_int64 (PS.delay q) /\ PS.delay q < FOREVER /\ (PS.delay q = NEVER \/ 0 <= PS.delay q).
Lemma delay_tag_start d : in_int64 d -> d = NEVER \/ 0 <= d -> tag_le st0 (delay_tag st0 d) /\ tag_le st0 (delay_strict st0 d).
Proof.
  intros Hd D. destruct start_facts as (F1 & F2 & F3). unfold delay_strict, delay_tag. cbn [ttime tmicro]. replace (start =? NEVER) with false by (tag_consts; lia). cbn [orb].
  destruct D as [->|D]; [split; apply tag_le_refl|]. replace (d <? 0) with false by lia.
  destruct (FOREVER - d <=? start) eqn:C; [split; cbn [ttime FOREVER_TAG]; repeat case_if; tag_consts; lia|].
  destruct (d =? 0) eqn:Z0; [split; [|cbn [negb andb]]; change ((0 + 1) mod two32) with 1; tag_consts; lia|].
  cbn [ttime]. split; repeat case_if; tag_consts; lia.
Qed.
Lemma possible_fine q b t : delay_fine q -> possible start q b t = true -> fine t /\ ttime t < FOREVER.
Proof.
  intros (D1 & D2 & D3) P. unfold possible in P. booly. destruct (delay_tag_start _ D1 D3) as [L1 L2].
  assert (L : tag_le st0 t) by (destruct b; cbv iota in H0; booly; [exact (tag_le_trans _ _ _ L2 H0)|apply (tag_le_trans _ _ _ L1); assumption]).
  destruct start_facts as (F1 & F2 & F3). split; [|assumption]. split; [|exact L]. revert L. tag_consts; lia.
Qed.
Lemma possible_spec q t : possible start q false t = true -> tag_le (delay_tag st0 (PS.delay q)) t /\ tmicro t < UINT_MAX /\ ttime t < FOREVER.
Proof. intros P. unfold possible in P. booly. auto. Qed.
Lemma possible_open ps q t : delay_fine q -> possible start q false t = true -> PS.skipped true start (at_tag ps t) q = false.
Proof.
  intros (D1 & D2 & D3) P. destruct (possible_spec _ _ P) as (H0 & Hm & Hf). unfold PS.skipped, at_tag. cbn [PS.cur andb]. destruct start_facts as (F1 & F2 & F3).
  destruct D3 as [D3|D3]; [rewrite D3; reflexivity|]. apply orb_false_iff. split.
  - destruct (PS.delay q =? 0) eqn:Z0; [|reflexivity]. apply Z.eqb_eq in Z0. rewrite Z0 in H0. unfold delay_tag in H0. cbn [ttime tmicro] in H0.
    replace (start =? NEVER) with false in H0 by (tag_consts; lia). cbn [orb] in H0. change (0 <? 0) with false in H0. replace (FOREVER - 0 <=? start) with false in H0 by (tag_consts; lia). change (0 =? 0) with true in H0. cbn iota in H0. change ((0 + 1) mod two32) with 1 in H0.
    cbn [andb]. destruct (ttime t =? start) eqn:T; [|reflexivity]. cbn [andb]. apply Z.eqb_eq in T. apply Z.eqb_neq. revert H0. tag_consts; lia.
  - destruct (0 <? PS.delay q) eqn:Z0; [|reflexivity]. cbn [andb]. apply Z.ltb_lt in Z0. apply Z.leb_gt.
    destruct (Z_lt_le_dec (start + PS.delay q) FOREVER) as [L|L].
    + destruct (delay_strict_latest st0 (PS.delay q) F3) as [A _]; cbn [ttime]; try lia; try assumption; [tag_consts; lia|].
      pose proof (tag_lt_le_trans _ _ _ A H0) as B. apply tag_compare_gt in B. lia.
    + exfalso. unfold delay_tag in H0. cbn [ttime] in H0. replace (start =? NEVER) with false in H0 by (tag_consts; lia). replace (PS.delay q <? 0) with false in H0 by lia. replace (FOREVER - PS.delay q <=? start) with true in H0 by lia. cbn [orb] in H0. revert H0. tag_consts; lia.
Qed.
Lemma possible_strip q q' b t : PS.delay q' = PS.delay q -> possible start q' b t = possible start q b t.
Proof. intros E. unfold possible. now rewrite E. Qed.

Record G (s : dfed) : Prop := mkG {
  G_ps : Gps (d_phase s) (d_ps s);
  G_queue : forall e, In e (d_queue s) -> fine (e_tag e) /\ ttime (e_tag e) < FOREVER;
  G_waited : forall n, d_waited s = Some n -> d_phase s = Running /\ ttime n < FOREVER /\ exists n', earliest (d_queue s) = Some n' /\ tag_le n' n;
  G_level : d_phase s <> Running -> d_level s = -1;
  G_reading : forall m, In m (d_reading s) -> exists q, nth_error (PS.ports (d_ps s)) (m_port m) = Some q /\ PS.physical q = false /\ possible start q false (m_tag m) = true;
  G_one : NoDup (map m_port (d_reading s)) }.

Lemma port_delay ps j q : map strip (PS.ports ps) = map strip ports0 -> nth_error (PS.ports ps) j = Some q -> delay_fine q.
Proof. intros E Eq. destruct (port_facts _ _ _ E Eq) as (_ & A & B & _ & C). now split. Qed.

Lemma reading_ps ps ps' (l : list msg) : map strip (PS.ports ps') = map strip (PS.ports ps) ->
  (forall m, In m l -> exists q, nth_error (PS.ports ps) (m_port m) = Some q /\ PS.physical q = false /\ possible start q false (m_tag m) = true) ->
  forall m, In m l -> exists q, nth_error (PS.ports ps') (m_port m) = Some q /\ PS.physical q = false /\ possible start q false (m_tag m) = true.
Proof.
  intros E R m Hm. destruct (R m Hm) as (q & Eq & P1 & P2). destruct (strip_nth _ _ _ _ E Eq) as (q' & E' & S'). destruct (strip_eq _ _ S') as (A & B & C & D).
  exists q'. split; [exact E'|]. split; [congruence|]. now rewrite (possible_strip q q').
Qed.

Lemma earliest_le l n e : earliest l = Some n -> In e l -> tag_le n (e_tag e).
Proof.
  revert n. induction l as [|x l IH]; intros n E Hin; [contradiction|]. destruct Hin as [->|Hin]; cbn [earliest] in E.
  - destruct (earliest l) as [t|]; injection E as <-; [|apply tag_le_refl]. destruct (tag_leb (e_tag e) t) eqn:L; [apply tag_le_refl|]. apply leb_false in L. now apply tag_lt_le.
  - destruct (earliest l) as [t|] eqn:E2.
    + injection E as <-. pose proof (IH t eq_refl Hin) as K. destruct (tag_leb (e_tag x) t) eqn:L; [|exact K]. apply leb_spec in L. now apply (tag_le_trans _ t).
    + destruct l as [|y l]; [contradiction|]. cbn [earliest] in E2. destruct (earliest l); discriminate.
Qed.
Lemma earliest_in l n : earliest l = Some n -> exists e, In e l /\ e_tag e = n.
Proof.
  revert n. induction l as [|x l IH]; intros n E; cbn [earliest] in E; [discriminate|].
  destruct (earliest l) as [t|].
  - injection E as <-. destruct (tag_leb (e_tag x) t); [exists x; split; [now left|reflexivity]|]. destruct (IH t eq_refl) as (e & A & B). exists e. split; [now right|exact B].
  - injection E as <-. exists x. split; [now left|reflexivity].
Qed.
Lemma earliest_cons e l n : earliest (e :: l) = Some n -> l = [] \/ exists n0, earliest l = Some n0 /\ tag_le n n0.
Proof.
  cbn [earliest]. destruct (earliest l) as [t|] eqn:E.
  - intros K. right. exists t. split; [reflexivity|]. injection K as <-. destruct (tag_leb (e_tag e) t) eqn:L; [now apply leb_spec|apply tag_le_refl].
  - intros _. left. destruct l as [|y l]; [reflexivity|]. cbn [earliest] in E. destruct (earliest l); discriminate.
Qed.

Lemma free_fine n l p : forall t, fine t /\ ttime t < FOREVER -> fine (free n l p t) /\ ttime (free n l p t) < FOREVER.
Proof.
  induction n as [|n IH]; intros t H; cbn [free]; [exact H|]. destruct (taken l p t); [|exact H]. apply IH. destruct H as [A B]. split; [now apply fine_bump|exact B].
Qed.
Lemma slot_fine s p t : G s -> fine t /\ ttime t < FOREVER -> fine (fst (slot s p t)) /\ ttime (fst (slot s p t)) < FOREVER.
Proof.
  intros [Gp _ _ _ _ _] [H1 H2]. unfold slot. destruct (tag_ltb (cur s) t || negb (running s)) eqn:E; cbn [fst].
  - destruct (taken (d_queue s) p t); [split; [now apply fine_bump|exact H2]|now split].
  - apply orb_false_iff in E. destruct E as [E1 E2]. apply free_fine. apply ltb_false in E1.
    pose proof (cur_fine _ _ t Gp H1 E1) as Fc. split; [now apply fine_bump|]. unfold running in E2. destruct Gp as [_ _ Go _ _ _]. unfold cur. cbn [bump ttime]. destruct (d_phase s); try discriminate. apply Go.
Qed.

Lemma waited_cons (e : event) l (w : option tag) ph : (forall n, w = Some n -> ph = Running /\ ttime n < FOREVER /\ exists n', earliest l = Some n' /\ tag_le n' n) ->
  forall n, w = Some n -> ph = Running /\ ttime n < FOREVER /\ exists n', earliest (e :: l) = Some n' /\ tag_le n' n.
Proof.
  intros H n En. destruct (H n En) as (A & B & n' & C & D). split; [exact A|]. split; [exact B|]. cbn [earliest]. rewrite C.
  eexists. split; [reflexivity|]. destruct (tag_leb (e_tag e) n') eqn:L; [|exact D]. apply leb_spec in L. now apply (tag_le_trans _ n').
Qed.
Ltac dproj := cbn [d_clock d_phase d_ps d_queue d_last d_seen d_reading d_horizon d_waited d_level d_ann d_arrived d_exec].
Ltac dproj_in H := cbn [d_clock d_phase d_ps d_queue d_last d_seen d_reading d_horizon d_waited d_level d_ann d_arrived d_exec] in H.

Lemma rest_in e l c : In e (rest l c) -> In e l /\ e_tag e <> c.
Proof. unfold rest. rewrite filter_In. intros [A B]. apply negb_true_iff, eqb_false in B. now split. Qed.

Lemma find_port l p m : find (fun m => (m_port m =? p)%nat) l = Some m -> In m l /\ m_port m = p.
Proof. intros E. apply find_some in E. destruct E as [A B]. apply Nat.eqb_eq in B. now split. Qed.
Lemma filter_NoDup_map (f : msg -> bool) l : NoDup (map m_port l) -> NoDup (map m_port (filter f l)).
Proof.
  induction l as [|x l IH]; intros H; cbn [filter map] in *; [constructor|]. inversion H as [|? ? A B]; subst. destruct (f x); [|now apply IH].
  cbn [map]. constructor; [|now apply IH]. intros C. apply A. apply in_map_iff in C. destruct C as (y & <- & C). apply filter_In in C. now apply in_map.
Qed.

Lemma idle_spec s q p : nth_error (PS.ports (d_ps s)) p = Some q -> idle s q = true -> ~ In p (map m_port (d_reading s)).
Proof.
  intros Eq I H. apply in_map_iff in H. destruct H as (m & <- & H). unfold idle in I. rewrite forallb_forall in I. specialize (I m H). rewrite Eq in I. now rewrite Nat.eqb_refl in I.
Qed.

Lemma G_step s o s' : G s -> dstep s o = Some s' -> G s'.
Proof.
  intros GG. pose proof GG as [G1 G2 G3 G4 G5 G6]. pose proof (g_strip _ _ G1) as Gs. intros E. destruct o; cbn [Decentralized.dstep] in E; cbv zeta in E.
  - (* tick *) destruct ((0 <=? d) && _) in E; [|discriminate]. injection E as <-. now constructor.
  - (* local *)
    destruct (_ && _) eqn:C in E; [|discriminate]. injection E as <-. apply andb_true_iff in C. destruct C as [C C4]. apply andb_true_iff in C. destruct C as [C C3]. apply andb_true_iff in C. destruct C as [C1 C2].
    apply Z.leb_le in C1. apply Z.ltb_lt in C2, C3. destruct start_facts as (F1 & F2 & F3).
    assert (L : tag_le st0 t).
    { destruct G1 as [_ Gc Go _ _ _]. unfold cur in C4. destruct (d_phase s); cbn [eff] in Go; booly; try assumption; apply tag_lt_le; eapply tag_le_lt_trans; try eassumption; apply Go. }
    constructor; dproj; try assumption.
    + intros e [<-|He]; [|now apply G2]. cbn [e_tag]. split; [|exact C3]. split; [|exact L]. revert L. tag_consts; lia.
    + now apply waited_cons.
  - (* header *)
    destruct (nth_error (PS.ports (d_ps s)) p) as [q|] eqn:Eq; [|discriminate]. destruct (_ && _) eqn:C in E; [|discriminate]. injection E as <-. booly.
    constructor; dproj; try assumption.
    + intros m [<-|Hm]; [|now apply G5]. cbn [m_port m_tag]. exists q. auto.
    + cbn [map m_port]. constructor; [|assumption]. now apply (idle_spec s q).
  - (* message *)
    destruct (nth_error (PS.ports (d_ps s)) p) as [q|] eqn:Eq; [|discriminate]. destruct (find _ (d_reading s)) as [m|] eqn:Ef; [|discriminate].
    destruct (find_port _ _ _ Ef) as [Hm Hp]. destruct (G5 m Hm) as (q1 & E1 & P1 & P2). rewrite Hp in E1. assert (q1 = q) by congruence. subst q1.
    destruct (possible_fine q false (m_tag m) (port_delay _ _ _ Gs Eq) P2) as [Ft Ftt].
    assert (R : forall ps', map strip (PS.ports ps') = map strip (PS.ports (d_ps s)) -> forall m0, In m0 (filter (fun m => negb (m_port m =? p)%nat) (d_reading s)) ->
       exists q, nth_error (PS.ports ps') (m_port m0) = Some q /\ PS.physical q = false /\ possible start q false (m_tag m0) = true).
    { intros ps' Es. apply (reading_ps (d_ps s)); [exact Es|]. intros m0 H0. apply filter_In in H0. now apply G5. }
    destruct (now index s p q (m_tag m)) eqn:N.
    + destruct (PS.step true start (d_ps s) (PS.OMessageNow p (m_tag m))) as [ps'|] eqn:Es; [|discriminate]. injection E as <-.
      pose proof (pstep_chg _ (PS.OMessageNow p (m_tag m)) _ Logic.I Es) as (_ & Ch & _). constructor; dproj; try assumption.
      * cbn [PS.step] in Es. now apply (Gps_update _ _ (m_tag m) p ps' G1).
      * now apply R.
      * now apply filter_NoDup_map.
    + destruct (PS.step true start (d_ps s) (PS.OMessageLater p (m_tag m))) as [ps'|] eqn:Es; [|discriminate].
      pose proof (slot_fine s p (m_tag m) GG (conj Ft Ftt)) as Sf. destruct (slot s p (m_tag m)) as [t' l] eqn:Esl. cbn [fst] in Sf. injection E as <-.
      pose proof (pstep_chg _ (PS.OMessageLater p (m_tag m)) _ Logic.I Es) as (_ & Ch & _). constructor; dproj; try assumption.
      * now apply (Gps_later _ _ (m_tag m) p ps' G1).
      * intros e [<-|He]; [exact Sf|now apply G2].
      * now apply waited_cons.
      * now apply R.
      * now apply filter_NoDup_map.
  - (* absent *)
    destruct (nth_error (PS.ports (d_ps s)) p) as [q|] eqn:Eq; [|discriminate]. destruct (_ && _) eqn:C in E; [|discriminate].
    destruct (PS.step true start (d_ps s) (PS.OAbsent p t)) as [ps'|] eqn:Es; [|discriminate]. injection E as <-. booly.
    destruct (possible_fine q true t (port_delay _ _ _ Gs Eq) H0) as [Ft Ftt].
    pose proof (pstep_chg _ (PS.OAbsent p t) _ Logic.I Es) as (_ & Ch & _). constructor; dproj; try assumption.
    + cbn [PS.step] in Es. now apply (Gps_update _ _ t p ps' G1).
    + now apply (reading_ps (d_ps s)).
  - (* gone *)
    destruct (forallb _ _) in E; [|discriminate]. destruct (PS.step true start (d_ps s) (PS.OGone f)) as [ps'|] eqn:Es; [|discriminate]. injection E as <-.
    pose proof (pstep_chg _ (PS.OGone f) _ Logic.I Es) as (_ & Ch & _). constructor; dproj; try assumption.
    + cbn [PS.step] in Es. unfold PS.gone in Es. now apply (Gps_gone _ f (PS.ports (d_ps s)) (d_ps s) 0 ps').
    + now apply (reading_ps (d_ps s)).
  - (* start *)
    destruct (d_phase s) eqn:Ph; try discriminate. destruct (expired _ _) in E; [|discriminate]. injection E as <-. constructor; dproj; try assumption.
    + destruct G1 as [A1 A2 A3 A4 A5 A6]. constructor; cbn [PS.ports PS.cur PS.mlaa eff] in *; try assumption. reflexivity.
    + intros n En. destruct (G3 n En) as [K _]. discriminate.
    + intros _. apply G4. discriminate.
  - (* started *)
    destruct (d_phase s) eqn:Ph; try discriminate. destruct (passes s st0) in E; [|discriminate]. injection E as <-. constructor; dproj; try assumption.
    + destruct G1 as [A1 A2 A3 A4 A5 A6]. constructor; try assumption. exact Logic.I.
    + intros e He. apply rest_in in He. now apply G2.
    + intros n En. destruct (G3 n En) as [K _]. discriminate.
    + congruence.
  - (* enter *)
    destruct (_ && _) eqn:C in E; [|discriminate]. injection E as <-. constructor; dproj; try assumption.
    intros K. exfalso. apply K. booly. unfold running in H. destruct (d_phase s); congruence.
  - (* assume *)
    destruct (nth_error (PS.ports (d_ps s)) p) as [q|] eqn:Eq; [|discriminate]. destruct (absent_time sta staa p (cur s)) as [u|]; [|discriminate].
    destruct (_ && _) eqn:C in E; [|discriminate]. destruct (PS.step true start (d_ps s) (PS.OAssumeAbsent p)) as [ps'|] eqn:Es; [|discriminate]. injection E as <-.
    pose proof (pstep_chg _ (PS.OAssumeAbsent p) _ Logic.I Es) as (_ & Ch & _). constructor; dproj; try assumption.
    + booly. unfold running in H. cbn [PS.step] in Es. apply (Gps_update _ _ (PS.cur (d_ps s)) p ps' G1); [|exact Es]. pose proof (g_ok _ _ G1) as Go. destruct (d_phase s); try discriminate. cbn [eff] in Go. now split.
    + now apply (reading_ps (d_ps s)).
  - (* next *)
    destruct (_ && _) eqn:C in E; [|discriminate]. destruct (earliest (d_queue s)) as [n|] eqn:Ee; [|discriminate]. destruct (PS.wait_until_time _ _ _ _) as [u|]; [|discriminate]. destruct (expired _ _) in E; [|discriminate]. injection E as <-.
    constructor; dproj; try assumption. intros n0 En. injection En as <-. split; [booly; unfold running in H; destruct (d_phase s); congruence|].
    destruct (earliest_in _ _ Ee) as (e & He & <-). split; [apply G2, He|]. exists (e_tag e). split; [exact Ee|apply tag_le_refl].
  - (* advance *)
    destruct (d_waited s) as [n|] eqn:Ew; [|discriminate]. destruct (earliest (d_queue s)) as [n'|] eqn:Ee; [|discriminate]. destruct (_ && _) in E; [|discriminate].
    destruct (G3 n eq_refl) as (Ph & _). destruct (earliest_in _ _ Ee) as (e0 & He0 & Et0). destruct (G2 e0 He0) as [Fn Fnt]. rewrite Et0 in Fn, Fnt.
    cbn [PS.step] in E. injection E as <-.
    pose proof (Gps_enter (d_ps s) n' (popped (d_queue s) n')) as Ge. cbv zeta in Ge.
    destruct (pop_fold (popped (d_queue s) n') (PS.update_max_level true start (PS.mkFed (PS.ports (d_ps s)) n' (PS.last_grant (d_ps s)) (PS.provisional (d_ps s)) (PS.mlaa (d_ps s))) (PS.last_grant (d_ps s)) (PS.provisional (d_ps s)))) as (_ & A2 & _).
    rewrite Ph in *. constructor; dproj; try assumption.
    + exact (Ge G1 Fn Fnt).
    + intros e He. apply rest_in in He. now apply G2.
    + intros n0 K. discriminate.
    + congruence.
    + apply (reading_ps (d_ps s)); [|exact G5]. exact A2.
Qed.

Lemma G_init clock : G (dinit start sta clock ports0).
Proof.
  destruct start_facts as (F1 & F2 & F3). unfold dinit. cbv zeta.
  constructor; dproj; try (intros; contradiction); try discriminate; try reflexivity; try constructor.
  - reflexivity.
  - cbn. reflexivity.
  - cbn [eff ttime]. repeat split; cbn [ttime tmicro]; try (tag_consts; lia).
  - intros j q Eq. cbn [PS.ports] in Eq. destruct Hcfg as (_ & _ & _ & _ & H). destruct (H j q Eq) as ((A & _) & -> & _). split; [tag_consts; lia|now left].
  - intros j q Eq O. cbn [PS.ports PS.mlaa] in *. 
    pose proof (PP.fold_levels true start (PS.boot true start ports0) ports0 PS.INT_MAX (Z.le_refl _)) as F. cbn zeta in F. destruct F as (_ & F2' & _).
    { apply Forall_forall. intros x Hx. apply In_nth_error in Hx. destruct Hx as (k & Hk). destruct Hcfg as (_ & _ & _ & _ & H). destruct (H k x Hk) as ((_ & A & _) & _). exact A. }
    apply F2'; [now apply nth_error_In in Eq|]. destruct O as (O1 & O2 & O3). unfold PP.blocks. change (PS.skipped true start (PS.boot true start ports0) q) with (PS.skipped true start (at_tag (PS.boot true start ports0) st0) q).
    unfold PS.skipped, at_tag in O3 |- *. cbn [PS.cur eff] in O3 |- *. rewrite O3, O1. cbn [negb andb]. rewrite andb_true_r. apply RtiProofs.cmp_gt0. exact O2.
  - cbn [PS.ports PS.mlaa].
    pose proof (PP.fold_levels true start (PS.boot true start ports0) ports0 PS.INT_MAX (Z.le_refl _)) as F. cbn zeta in F. destruct F as (_ & _ & F3').
    { apply Forall_forall. intros x Hx. apply In_nth_error in Hx. destruct Hx as (k & Hk). destruct Hcfg as (_ & _ & _ & _ & H). destruct (H k x Hk) as ((_ & A & _) & _). exact A. }
    destruct F3' as [F3'|(q & A & B & C)]; [left; exact F3'|right]. apply In_nth_error in A. destruct A as (j & A). exists j, q. unfold PP.blocks in B. booly. apply Z.ltb_lt, RtiProofs.cmp_gt0 in H0. auto.
Qed.
(** ** One port *)
Section OnePort.
Variable p : nat.
Notation AB := (absent_bound sta staa p).
Notation ADV := (advance_bound sta).
Definition J (k : tag) (clock : Z) (n : tag) : Prop := forall t, fine t -> tag_lt t n -> tag_le t k \/ ADV t < clock.
Definition entry (s : dfed) (m : msg) : Prop :=
  tag_lt (d_ann s p) (m_tag m) /\
  ((tag_lt (cur s) (m_tag m) /\ tag_le (d_horizon s) (m_tag m)) \/
   (tag_le (m_tag m) (cur s) /\ tag_le (d_horizon s) (bump (cur s)) /\ (tag_lt (m_tag m) (cur s) -> ADV (m_tag m) < m_clock m))).

Record P (s : dfed) : Prop := mkP {
  P_clock : d_clock s < FOREVER - MIN_SLEEP;
  P_known : forall q, nth_error (PS.ports (d_ps s)) p = Some q -> tag_le (PS.known q) (d_ann s p) \/ AB (PS.known q) < d_clock s;
  P_reading : forall m, In m (d_reading s) -> m_port m = p -> entry s m;
  P_J : d_phase s = Running -> forall q, nth_error (PS.ports (d_ps s)) p = Some q -> J (PS.known q) (d_clock s) (cur s);
  P_W : forall n, d_waited s = Some n -> forall q, nth_error (PS.ports (d_ps s)) p = Some q -> J (PS.known q) (d_clock s) n;
  P_level : forall q, nth_error (PS.ports (d_ps s)) p = Some q -> open_at (d_ps s) (eff (d_phase s) (d_ps s)) q ->
     d_level s < PS.level q \/ AB (eff (d_phase s) (d_ps s)) < d_clock s;
  P_last : d_last s p = NEVER_TAG;
  P_queue : forall e t, In e (d_queue s) -> e_from e = Some (p, t) -> e_tag e = t /\ (d_phase s = Running -> tag_lt (cur s) t) /\ tag_le t (d_ann s p);
  P_exec : forall x, In x (d_exec s) -> x_port x = p -> x_tag x = x_intended x /\ x_violation x = false /\
     forall q, nth_error (PS.ports (d_ps s)) p = Some q -> x_level x < PS.level q }.

Lemma staa_facts : 0 <= staa p <= FOREVER.
Proof. destruct Hcfg as (_ & _ & _ & H & _). apply H. Qed.
Lemma AB_mono a b : ttime a <= ttime b -> AB a <= AB b.
Proof. unfold absent_bound. destruct (_ <? _); lia. Qed.
Lemma AB_mono_tag a b : tag_le a b -> AB a <= AB b.
Proof. intros H. apply AB_mono. revert H. unfold tag_le. lia. Qed.
Lemma ADV_AB t : ADV t <= AB t.
Proof. pose proof staa_facts. unfold advance_bound, absent_bound, MIN_SLEEP. destruct (_ <? _); lia. Qed.
Lemma ADV_mono a b : tag_le a b -> ADV a <= ADV b.
Proof. unfold advance_bound, tag_le. lia. Qed.

(** What a change of the known tag must respect *)
Definition okc (clock : Z) (a b : tag) : Prop := tag_le a b \/ AB a < clock \/ ttime b = FOREVER.
Lemma J_okc clock a b n : okc clock a b -> ttime n < FOREVER -> J a clock n -> J b clock n.
Proof.
  intros O Hn H t Ft L. destruct (H t Ft L) as [K|K]; [|now right]. destruct O as [O|[O|O]].
  - left. now apply (tag_le_trans _ a).
  - right. pose proof (ADV_AB t). pose proof (AB_mono_tag t a K). lia.
  - left. revert L O Hn. unfold tag_lt, tag_le. lia.
Qed.

Lemma absent_time_bound c u clock : ttime c < FOREVER -> 0 <= ttime c -> clock < FOREVER - MIN_SLEEP ->
  absent_time sta staa p c = Ok u -> expired clock u = true -> AB c < clock.
Proof.
  intros C1 C2 Hk E X. unfold expired in X. apply Z.ltb_lt in X. pose proof staa_facts as Sf. destruct start_facts as (F1 & F2 & F3).
  unfold absent_time in E. destruct (time_add (staa p) sta) as [w|] eqn:E1; [|discriminate]. cbn [bind] in E.
  apply time_add_defined in E1; [|tag_consts; lia|tag_consts; lia].
  destruct (time_add (ttime c) w) as [v|] eqn:E2; [|discriminate]. cbn [bind] in E.
  assert (Hw : w = Z.min FOREVER (staa p + sta)) by (subst w; unfold sat_sum, clamp64, FOREVER in *; repeat case_if; tag_consts; lia).
  apply time_add_defined in E2; [|tag_consts; lia|tag_consts; lia].
  assert (Hv : v = Z.min FOREVER (ttime c + w)) by (rewrite E2; clear E1 E2; unfold sat_sum, clamp64, FOREVER in *; repeat case_if; tag_consts; lia).
  clear E1 E2. unfold absent_bound. unfold c_add64 in E.
  destruct (w <? 5 * MIN_SLEEP) eqn:W.
  - destruct (in_int64b (v + 5 * MIN_SLEEP)) eqn:I in E; [|discriminate]. injection E as <-. replace (staa p + sta <? 5 * MIN_SLEEP) with true by (unfold MIN_SLEEP in *; tag_consts; lia). unfold MIN_SLEEP in *; tag_consts; lia.
  - injection E as <-. replace (staa p + sta <? 5 * MIN_SLEEP) with false by (unfold MIN_SLEEP in *; tag_consts; lia). unfold MIN_SLEEP in *; tag_consts; lia.
Qed.

Lemma bump_above a t : tag_ok a -> tag_ok t -> tag_lt a t -> tag_le (bump a) t.
Proof. intros Ha Ht L. destruct (bump_cases a Ha) as [[_ ->]|[_ ->]]; revert L; tag_consts; lia. Qed.
Lemma below_bump a t : tag_ok a -> tag_ok t -> tag_lt t (bump a) -> tag_le t a.
Proof. intros Ha Ht L. destruct (bump_cases a Ha) as [[_ E]|[_ E]]; rewrite E in L; revert L; tag_consts; lia. Qed.

Lemma cur_ok s : G s -> tag_ok (cur s).
Proof. intros [[_ Gc Go _ _ _] _ _ _ _ _]. unfold cur. destruct (d_phase s); cbn [eff] in *; try apply Go. rewrite Gc. destruct start_facts as (B1 & B2 & B3). tag_consts; lia. Qed.
Lemma cur_notrunning s : G s -> d_phase s <> Running -> tag_le (cur s) st0.
Proof. intros [[_ Gc _ _ _ _] _ _ _ _ _] H. unfold cur. destruct (d_phase s); [| |congruence]; rewrite Gc; destruct start_facts as (B1 & B2 & B3); tag_consts; lia. Qed.
Lemma reading_tag s m : G s -> In m (d_reading s) -> fine (m_tag m) /\ ttime (m_tag m) < FOREVER /\ tmicro (m_tag m) < UINT_MAX.
Proof.
  intros GG Hm. destruct (G_reading _ GG m Hm) as (q & Eq & _ & P2). pose proof (g_strip _ _ (G_ps _ GG)) as Gs.
  destruct (possible_fine q false (m_tag m) (port_delay _ _ _ Gs Eq) P2) as [A B]. destruct (possible_spec _ _ P2) as (_ & C & _). auto.
Qed.

(** The part of the state that updates of port tables concern *)
Lemma open_same ps ps' c q q' : strip q' = strip q -> PS.known q' = PS.known q -> open_at ps' c q' -> open_at ps c q.
Proof.
  intros S' K (O1 & O2 & O3). destruct (strip_eq _ _ S') as (A & B & C & D). split; [congruence|]. split; [congruence|].
  unfold PS.skipped, at_tag in *. cbn [PS.cur] in *. now rewrite C in O3.
Qed.
Lemma open_okc clock ps ps' c q q' : strip q' = strip q -> okc clock (PS.known q) (PS.known q') -> ttime c < FOREVER -> open_at ps' c q' -> open_at ps c q \/ AB c < clock.
Proof.
  intros S' O Hc (O1 & O2 & O3). destruct (strip_eq _ _ S') as (A & B & C & D). destruct O as [O|[O|O]].
  - left. split; [congruence|]. split; [now apply (tag_le_lt_trans _ (PS.known q'))|]. unfold PS.skipped, at_tag in *. cbn [PS.cur] in *. now rewrite C in O3.
  - destruct (tag_le_total c (PS.known q)) as [L|L]; [right; pose proof (AB_mono_tag c (PS.known q) L); lia|].
    left. split; [congruence|]. split; [exact L|]. unfold PS.skipped, at_tag in *. cbn [PS.cur] in *. now rewrite C in O3.
  - exfalso. revert O2 O Hc. unfold tag_lt. lia.
Qed.
Definition kept_port (clock : Z) (ps ps' : PS.fed) : Prop :=
  forall q, nth_error (PS.ports ps) p = Some q -> exists q', nth_error (PS.ports ps') p = Some q' /\ strip q' = strip q /\ okc clock (PS.known q) (PS.known q').
Lemma kept_back clock ps ps' q' : map strip (PS.ports ps') = map strip (PS.ports ps) -> kept_port clock ps ps' -> nth_error (PS.ports ps') p = Some q' ->
  exists q, nth_error (PS.ports ps) p = Some q /\ strip q' = strip q /\ okc clock (PS.known q) (PS.known q').
Proof.
  intros E H E'. symmetry in E. destruct (strip_nth _ _ _ _ E E') as (q & Eq & _). destruct (H q Eq) as (q2 & E2 & S2 & O2). assert (q2 = q') by congruence. subst q2. exists q. auto.
Qed.

Lemma P_ps s ps' : G s -> P s -> chg (d_ps s) ps' -> kept_port (d_clock s) (d_ps s) ps' ->
  (d_phase s = Running -> forall q, nth_error (PS.ports ps') p = Some q -> J (PS.known q) (d_clock s) (PS.cur ps')) /\
  (forall n, d_waited s = Some n -> forall q, nth_error (PS.ports ps') p = Some q -> J (PS.known q) (d_clock s) n) /\
  (forall q, nth_error (PS.ports ps') p = Some q -> open_at ps' (eff (d_phase s) ps') q ->
     d_level s < PS.level q \/ AB (eff (d_phase s) ps') < d_clock s) /\
  (forall x, In x (d_exec s) -> x_port x = p -> x_tag x = x_intended x /\ x_violation x = false /\
     forall q, nth_error (PS.ports ps') p = Some q -> x_level x < PS.level q).
Proof.
  intros GG [P1 P2 P3 P4 P5 P6 P7 P8 P9] (C1 & C2 & _) H.
  assert (Ee : eff (d_phase s) ps' = eff (d_phase s) (d_ps s)) by (destruct (d_phase s); cbn [eff]; congruence).
  split; [|split; [|split]].
  - intros Ph q' E'. destruct (kept_back _ _ _ _ C2 H E') as (q & Eq & S' & O). rewrite C1. apply (J_okc _ _ _ _ O); [|now apply P4].
    pose proof (g_ok _ _ (G_ps _ GG)) as Go. rewrite Ph in Go. apply Go.
  - intros n En q' E'. destruct (kept_back _ _ _ _ C2 H E') as (q & Eq & S' & O). apply (J_okc _ _ _ _ O); [|now apply P5]. now destruct (G_waited _ GG n En) as (_ & A & _).
  - intros q' E' Op. rewrite Ee in *. destruct (kept_back _ _ _ _ C2 H E') as (q & Eq & S' & O). destruct (strip_eq _ _ S') as (_ & Lv & _ & _).
    pose proof (g_ok _ _ (G_ps _ GG)) as (_ & _ & Go).
    destruct (open_okc _ (d_ps s) ps' _ q q' S' O Go Op) as [Op'|B]; [|now right]. destruct (P6 q Eq Op') as [A|A]; [left; lia|now right].
  - intros x Hx Xp. destruct (P9 x Hx Xp) as (A & B & C). split; [exact A|]. split; [exact B|]. intros q' E'. destruct (kept_back _ _ _ _ C2 H E') as (q & Eq & S' & O).
    destruct (strip_eq _ _ S') as (_ & -> & _ & _). now apply C.
Qed.

Lemma in_time_last a s : all_in_time sta staa p s -> In a (d_arrived s) -> a_port a = p -> in_time sta staa a.
Proof. intros H A B. now apply H. Qed.

Lemma okc_same clock a : okc clock a a.
Proof. left. apply tag_le_refl. Qed.

Lemma kept_other clock ps t i ps' : i <> p -> PS.update_port true start ps t i = Some ps' -> kept_port clock ps ps'.
Proof.
  intros n E q Eq. destruct (known_update _ _ _ _ _ _ E Eq) as (q' & E' & S' & K). exists q'. split; [exact E'|]. split; [exact S'|].
  replace (i =? p)%nat with false in K by (symmetry; now apply Nat.eqb_neq). rewrite K. apply okc_same.
Qed.
Lemma known_other ps t i ps' q' : i <> p -> PS.update_port true start ps t i = Some ps' -> nth_error (PS.ports ps') p = Some q' ->
  exists q, nth_error (PS.ports ps) p = Some q /\ PS.known q' = PS.known q.
Proof.
  intros n E E'. destruct (update_chg _ _ _ _ E) as (_ & Es & _). symmetry in Es. destruct (strip_nth _ _ _ _ Es E') as (q & Eq & _).
  destruct (known_update _ _ _ _ _ _ E Eq) as (q2 & E2 & _ & K). assert (q2 = q') by congruence. subst q2. exists q. split; [exact Eq|].
  now replace (i =? p)%nat with false in K by (symmetry; now apply Nat.eqb_neq).
Qed.

(** Header of a message *)
Lemma entry_raise s p' t m : G s -> P s -> In m (d_reading s) -> m_port m = p -> 
  entry (mkDfed (d_clock s) (d_phase s) (d_ps s) (d_queue s) (d_last s) (d_seen s)
                    (mkMsg p' t (d_clock s) :: d_reading s) (raise s t) (d_waited s) (d_level s)
                    (d_ann s) (d_arrived s) (d_exec s)) m.
Proof.
  intros GG PPs Hm Ep. destruct (P_reading _ PPs m Hm Ep) as (E1 & E2). destruct (reading_tag _ _ GG Hm) as ((Mo & _) & _). unfold entry, cur. dproj. fold (cur s). split; [exact E1|].
  assert (R : tag_le (raise s t) (d_horizon s) \/ raise s t = bump (cur s)).
  { unfold raise. destruct (tag_ltb (cur s) t); [|now right]. left. destruct (tag_ltb t (d_horizon s)) eqn:L; [apply ltb_spec in L; now apply tag_lt_le|apply tag_le_refl]. }
  pose proof (cur_ok _ GG) as Co. destruct E2 as [(A & B)|(A & B & C)].
  - left. split; [exact A|]. destruct R as [R|R]; [now apply (tag_le_trans _ (d_horizon s))|]. rewrite R. now apply bump_above.
  - right. split; [exact A|]. split; [|exact C]. destruct R as [R|R]; [now apply (tag_le_trans _ (d_horizon s))|]. rewrite R. apply tag_le_refl.
Qed.

Lemma late_bound s q t : G s -> P s -> nth_error (PS.ports (d_ps s)) p = Some q -> tag_lt (d_ann s p) t -> fine t -> tag_lt t (cur s) -> ADV t < d_clock s.
Proof.
  intros GG PPs Eq An Ft L. destruct (d_phase s) eqn:Ph.
  1,2: exfalso; assert (K : d_phase s <> Running) by congruence; pose proof (cur_notrunning _ GG K) as Cn; destruct Ft as [_ Ft]; pose proof (tag_lt_le_trans _ _ _ L Cn) as K2; apply (tag_lt_irrefl t); now apply (tag_lt_le_trans _ st0).
  destruct (P_J _ PPs Ph q Eq t Ft L) as [K|K]; [|exact K].
  destruct (P_known _ PPs q Eq) as [A|A].
  - exfalso. apply (tag_lt_irrefl t). apply (tag_le_lt_trans _ (d_ann s p)); [|exact An]. now apply (tag_le_trans _ (PS.known q)).
  - pose proof (ADV_AB t). pose proof (AB_mono_tag _ _ K). lia.
Qed.
Lemma taken_false s t : P s -> tag_lt (d_ann s p) t -> taken (d_queue s) p t = false.
Proof.
  intros PPs An. apply not_true_iff_false. intros K. unfold taken in K. apply existsb_exists in K. destruct K as (e & He & K). apply andb_true_iff in K. destruct K as [K1 K2].
  apply eqb_spec in K1. destruct (e_from e) as [[p' t']|] eqn:Ef; [|discriminate]. apply Nat.eqb_eq in K2. subst p'.
  destruct (P_queue _ PPs e t' He Ef) as (A & _ & B). apply (tag_lt_irrefl t). apply (tag_le_lt_trans _ (d_ann s p)); [|exact An]. congruence.
Qed.

Lemma entry_ps s m ph ps' q l se reading w lv ann arr ex : entry s m -> PS.cur ps' = cur s -> ann p = d_ann s p ->
  entry (mkDfed (d_clock s) ph ps' q l se reading (d_horizon s) w lv ann arr ex) m.
Proof. unfold entry, cur. dproj. intros H -> ->. exact H. Qed.

Lemma P_tick s d s' : G s -> P s -> dstep s (DTick d) = Some s' -> P s'.
Proof.
  intros GG [P1 P2 P3 P4 P5 P6 P7 P8 P9] E. cbn [Decentralized.dstep] in E. destruct (_ && _) eqn:C in E; [|discriminate]. injection E as <-. booly.
  assert (JJ : forall k n, J k (d_clock s) n -> J k (d_clock s + d) n) by (intros k n H1 t Ft L; destruct (H1 t Ft L) as [K|K]; [now left|right; lia]).
  constructor; dproj; try assumption.
  - intros q Eq. destruct (P2 q Eq); [now left|right; lia].
  - intros Ph q Eq. apply JJ. now apply P4.
  - intros n En q Eq. apply JJ. now apply (P5 n En).
  - intros q Eq O. destruct (P6 q Eq O); [now left|right; lia].
Qed.

Lemma P_local s t s' : P s -> dstep s (DLocal t) = Some s' -> P s'.
Proof.
  intros [P1 P2 P3 P4 P5 P6 P7 P8 P9] E. cbn [Decentralized.dstep] in E. destruct (_ && _) in E; [|discriminate]. injection E as <-.
  constructor; dproj; try assumption. intros e t0 [<-|He]; [discriminate|now apply P8].
Qed.

Lemma P_header s p' t s' : G s -> P s -> dstep s (DHeader p' t) = Some s' -> P s'.
Proof.
  intros GG PPs E. pose proof PPs as [P1 P2 P3 P4 P5 P6 P7 P8 P9]. cbn [Decentralized.dstep] in E. cbv zeta in E.
  destruct (nth_error (PS.ports (d_ps s)) p') as [q|] eqn:Eq; [|discriminate]. destruct (_ && _) eqn:C in E; [|discriminate]. injection E as <-.
  constructor; dproj; try assumption. intros m [<-|Hm] Ep; [|now apply entry_raise]. cbn [m_port] in Ep. subst p'. unfold entry, cur. dproj. cbn [m_tag m_clock]. fold (cur s).
  booly. split; [assumption|]. pose proof (g_strip _ _ (G_ps _ GG)) as Gs.
  destruct (possible_fine q false t (port_delay _ _ _ Gs Eq) ltac:(assumption)) as [Ft _].
  unfold raise. destruct (tag_ltb (cur s) t) eqn:L.
  - apply ltb_spec in L. left. split; [exact L|]. destruct (tag_ltb t (d_horizon s)) eqn:L2; [apply tag_le_refl|now apply ltb_false].
  - apply ltb_false in L. right. split; [exact L|]. split; [apply tag_le_refl|]. intros L2. now apply (late_bound s q).
Qed.

(** The message is handled at once. *)
Lemma now_holds s q m : G s -> P s -> nth_error (PS.ports (d_ps s)) p = Some q -> In m (d_reading s) -> m_port m = p -> d_phase s = Running ->
  m_tag m = cur s -> d_clock s <= AB (m_tag m) ->
  now index s p q (m_tag m) = true /\ tag_lt (PS.known q) (m_tag m) /\ d_level s < PS.level q.
Proof.
  intros GG PPs Eq Hm Ep Ph Et Hc. pose proof (P_reading _ PPs m Hm Ep) as (An & _). destruct (reading_tag _ _ GG Hm) as ((Mo & Ms) & _).
  destruct (G_reading _ GG m Hm) as (q1 & E1 & Py & Po). rewrite Ep in E1. assert (q1 = q) by congruence. subst q1. clear E1.
  pose proof (g_strip _ _ (G_ps _ GG)) as Gs. destruct (port_facts _ _ _ Gs Eq) as (_ & _ & _ & Li & _).
  assert (K : tag_lt (PS.known q) (m_tag m)).
  { destruct (tag_le_total (m_tag m) (PS.known q)) as [K|K]; [|exact K]. exfalso. destruct (P_known _ PPs q Eq) as [A|A].
    - apply (tag_lt_irrefl (m_tag m)). apply (tag_le_lt_trans _ (d_ann s p)); [|exact An]. now apply (tag_le_trans _ (PS.known q)).
    - pose proof (AB_mono_tag _ _ K). lia. }
  assert (O : open_at (d_ps s) (eff (d_phase s) (d_ps s)) q).
  { rewrite Ph. cbn [eff]. fold (cur s). rewrite <- Et. split; [exact Py|]. split; [exact K|]. apply (possible_open (d_ps s) q (m_tag m) (port_delay _ _ _ Gs Eq) Po). }
  pose proof (g_lim _ _ (G_ps _ GG) p q Eq O) as Lm.
  split; [|split; [exact K|]].
  - unfold now. rewrite Et at 1. rewrite eqb_refl, Py, (P_last _ PPs). unfold running. rewrite Ph. cbn [negb]. rewrite !andb_true_r.
    replace (PS.mlaa (d_ps s) <=? index p) with true by (symmetry; apply Z.leb_le; lia). cbn [andb]. apply andb_true_iff. split; apply ltb_spec; [|exact K].
    destruct start_facts as (B1 & B2 & B3). revert Ms. tag_consts; lia.
  - destruct (P_level _ PPs q Eq O) as [A|A]; [exact A|]. exfalso. rewrite Ph in A. cbn [eff] in A. fold (cur s) in A. rewrite <- Et in A. lia.
Qed.

Lemma filter_other (l : list msg) m : In m (filter (fun m => negb (m_port m =? p)%nat) l) -> m_port m <> p.
Proof. rewrite filter_In. intros [_ A]. apply negb_true_iff in A. now apply Nat.eqb_neq in A. Qed.

Lemma horizon_kept (l : list msg) h m : In m l -> match l with [] => FOREVER_TAG | _ => h end = h.
Proof. destruct l; [contradiction|reflexivity]. Qed.

Lemma P_msg_other s p' s' : p' <> p -> G s -> P s -> dstep s (DMsg p') = Some s' -> P s'.
Proof.
  intros n GG PPs E. pose proof PPs as [P1 P2 P3 P4 P5 P6 P7 P8 P9]. cbn [Decentralized.dstep] in E. cbv zeta in E.
  destruct (nth_error (PS.ports (d_ps s)) p') as [q|] eqn:Eq; [|discriminate]. destruct (find _ (d_reading s)) as [m|] eqn:Ef; [|discriminate].
  assert (Au : forall t, upd (d_ann s) p' t p = d_ann s p) by (intros t; unfold upd; now replace (p =? p')%nat with false by (symmetry; apply Nat.eqb_neq; congruence)).
  assert (En : forall ps', PS.cur ps' = cur s -> forall m0, In m0 (filter (fun m => negb (m_port m =? p')%nat) (d_reading s)) -> m_port m0 = p ->
     forall q l se w lv t arr ex, entry (mkDfed (d_clock s) (d_phase s) ps' q l se (filter (fun m => negb (m_port m =? p')%nat) (d_reading s)) 
        (match filter (fun m => negb (m_port m =? p')%nat) (d_reading s) with [] => FOREVER_TAG | _ => d_horizon s end) w lv (upd (d_ann s) p' t) arr ex) m0).
  { intros ps' Ec m0 H0 H1 q0 l0 se w lv t arr ex. rewrite (horizon_kept _ _ _ H0). apply entry_ps; [|exact Ec|apply Au]. apply P3; [|exact H1]. now apply filter_In in H0. }
  destruct (now index s p' q (m_tag m)) eqn:N.
  - destruct (PS.step true start (d_ps s) (PS.OMessageNow p' (m_tag m))) as [ps'|] eqn:Es; [|discriminate]. injection E as <-. cbn [PS.step] in Es.
    pose proof (update_chg _ _ _ _ Es) as Ch. destruct (P_ps s ps' GG PPs Ch (kept_other _ _ _ _ _ n Es)) as (Q1 & Q2 & Q3 & Q4).
    constructor; dproj; try assumption.
    + intros q' E'. destruct (known_other _ _ _ _ _ n Es E') as (q0 & E0 & ->). rewrite Au. now apply P2.
    + intros m0 H0 H1. apply En; try assumption. apply Ch.
    + unfold cur at 1. dproj. intros e t He Ht. rewrite Au. destruct (P8 e t He Ht) as (A & B & C). split; [exact A|]. split; [|exact C]. intros K. destruct Ch as (-> & _). now apply B.
    + intros x [<-|Hx] Xp; [cbn [x_port] in Xp; congruence|now apply Q4].
  - destruct (PS.step true start (d_ps s) (PS.OMessageLater p' (m_tag m))) as [ps'|] eqn:Es; [|discriminate].
    destruct (slot s p' (m_tag m)) as [t' l] eqn:Esl. injection E as <-. cbn [PS.step] in Es. rewrite Eq in Es.
    pose proof (update_chg _ _ _ _ Es) as Ch. destruct (P_ps s ps' GG PPs Ch (kept_other _ _ _ _ _ n Es)) as (Q1 & Q2 & Q3 & Q4).
    constructor; dproj; try assumption.
    + intros q' E'. destruct (known_other _ _ _ _ _ n Es E') as (q0 & E0 & ->). rewrite Au. now apply P2.
    + intros m0 H0 H1. apply En; try assumption. apply Ch.
    + destruct l; [|exact P7]. unfold upd. now replace (p =? p')%nat with false by (symmetry; apply Nat.eqb_neq; congruence).
    + unfold cur at 1. dproj. intros e t [<-|He] Ht; [cbn [e_from] in Ht; congruence|]. rewrite Au. destruct (P8 e t He Ht) as (A & B & C). split; [exact A|]. split; [|exact C]. intros K. destruct Ch as (-> & _). now apply B.
Qed.

Lemma P_msg s s' : G s -> P s -> all_in_time sta staa p s' -> dstep s (DMsg p) = Some s' -> P s'.
Proof.
  intros GG PPs T E. pose proof PPs as [P1 P2 P3 P4 P5 P6 P7 P8 P9]. cbn [Decentralized.dstep] in E. cbv zeta in E.
  destruct (nth_error (PS.ports (d_ps s)) p) as [q|] eqn:Eq; [|discriminate]. destruct (find _ (d_reading s)) as [m|] eqn:Ef; [|discriminate].
  destruct (find_port _ _ _ Ef) as [Hm Hp]. destruct (P3 m Hm Hp) as (An & En). destruct (reading_tag _ _ GG Hm) as ((Mo & Ms) & Mf & Mm).
  set (a := mkArr p (m_tag m) false (m_clock m) (d_clock s) (cur s) (d_phase s)) in *.
  assert (Ta : in_time sta staa a).
  { apply (T a); [|reflexivity]. destruct (now index s p q (m_tag m)).
    - destruct (PS.step true start (d_ps s) (PS.OMessageNow p (m_tag m))) as [ps'|]; [|discriminate]. injection E as <-. now left.
    - destruct (PS.step true start (d_ps s) (PS.OMessageLater p (m_tag m))) as [ps'|]; [|discriminate]. destruct (slot s p (m_tag m)) as [t' l]. injection E as <-. now left. }
  destruct Ta as (T1 & T2 & T3). unfold a in T1, T2, T3. cbn [a_absent a_phase a_cur a_tag a_clock a_port a_hclock] in T1, T2, T3.
  assert (Au : upd (d_ann s) p (m_tag m) p = m_tag m) by (unfold upd; now rewrite Nat.eqb_refl).
  assert (Cases : (d_phase s = Running /\ m_tag m = cur s /\ d_clock s <= AB (m_tag m)) \/ tag_lt (cur s) (m_tag m)).
  { destruct En as [(A & _)|(A & B & C)]; [now right|]. assert (Ph : d_phase s = Running).
    { destruct (d_phase s); try reflexivity; exfalso; apply (tag_lt_irrefl (m_tag m)); apply (tag_le_lt_trans _ _ _ A); apply T1; congruence. }
    apply tag_le_lt_or_eq in A. destruct A as [A|A].
    - exfalso. specialize (C A). assert (K : m_clock m <= ADV (m_tag m)); [|lia]. apply T3. intros [_ K]. rewrite K in A. now apply tag_lt_irrefl in A.
    - left. split; [exact Ph|]. split; [exact A|]. apply T2; [exact Ph|congruence]. }
  destruct Cases as [(Ph & Et & Hc)|L].
  - destruct (now_holds s q m GG PPs Eq Hm Hp Ph Et Hc) as (N & Kn & Lv). rewrite N in E.
    destruct (PS.step true start (d_ps s) (PS.OMessageNow p (m_tag m))) as [ps'|] eqn:Es; [|discriminate]. injection E as <-. cbn [PS.step] in Es.
    pose proof (update_chg _ _ _ _ Es) as Ch. destruct (known_update _ _ _ _ _ _ Es Eq) as (q' & E' & S' & K'). rewrite Nat.eqb_refl in K'.
    assert (K2 : PS.known q' = m_tag m).
    { rewrite K'. destruct (later_cases (m_tag m) (PS.cur (d_ps s))) as [[-> _]|[_ L]]; [|exfalso; fold (cur s) in L; rewrite Et in L; now apply tag_lt_irrefl in L].
      destruct (absorb_cases (m_tag m) (PS.known q)) as [[A _]|[[A _]|[_ A]]]; [|rewrite <- A in Kn; now apply tag_lt_irrefl in Kn|exact A]. exfalso. apply (tag_lt_irrefl (m_tag m)). now apply (tag_lt_trans _ (PS.known q)). }
    assert (Kp : kept_port (d_clock s) (d_ps s) ps').
    { intros q0 E0. assert (q0 = q) by congruence. subst q0. exists q'. split; [exact E'|]. split; [exact S'|]. left. rewrite K2. now apply tag_lt_le. }
    destruct (P_ps s ps' GG PPs Ch Kp) as (Q1 & Q2 & Q3 & Q4). destruct (strip_eq _ _ S') as (_ & Lv' & _ & _).
    constructor; dproj; try assumption.
    + intros q0 E0. assert (q0 = q') by congruence. subst q0. left. rewrite K2, Au. apply tag_le_refl.
    + intros m0 H0 H1. now apply filter_other in H0.
    + unfold cur at 1. dproj. intros e t He Ht. rewrite Au. destruct (P8 e t He Ht) as (A & B & C). split; [exact A|]. split; [intros K; destruct Ch as (-> & _); now apply B|].
      apply tag_lt_le. now apply (tag_le_lt_trans _ (d_ann s p)).
    + intros x [<-|Hx] Xp; [|now apply Q4]. cbn [x_tag x_intended x_violation x_level]. split; [congruence|]. split; [apply ltb_false; rewrite Et; apply tag_le_refl|].
      intros q0 E0. assert (q0 = q') by congruence. subst q0. lia.
  - assert (N : now index s p q (m_tag m) = false).
    { unfold now. replace (tag_eqb (m_tag m) (cur s)) with false; [rewrite andb_false_r; reflexivity|]. symmetry. apply eqb_false. intros K. rewrite K in L. now apply tag_lt_irrefl in L. }
    rewrite N in E. destruct (PS.step true start (d_ps s) (PS.OMessageLater p (m_tag m))) as [ps'|] eqn:Es; [|discriminate].
    assert (Sl : slot s p (m_tag m) = (m_tag m, false)).
    { unfold slot. replace (tag_ltb (cur s) (m_tag m)) with true by (symmetry; now apply ltb_spec). cbn [orb]. now rewrite taken_false. }
    rewrite Sl in E. injection E as <-. cbn [PS.step] in Es. rewrite Eq in Es.
    assert (At : PS.actual_tag true (d_ps s) (m_tag m) q = m_tag m).
    { unfold PS.actual_tag. fold (cur s). replace (tag_compare (m_tag m) (cur s) <=? 0) with false; [reflexivity|]. symmetry. apply Z.leb_gt. apply tag_compare_gt in L. lia. }
    rewrite At in Es. pose proof (update_chg _ _ _ _ Es) as Ch. destruct (known_update _ _ _ _ _ _ Es Eq) as (q' & E' & S' & K'). rewrite Nat.eqb_refl in K'.
    destruct (later_cases (m_tag m) (PS.cur (d_ps s))) as [[Lt _]|[_ L2]]; [|exfalso; fold (cur s) in L2; apply (tag_lt_irrefl (cur s)); now apply (tag_lt_trans _ (m_tag m))]. rewrite Lt in K'.
    assert (Kn : (tag_le (PS.known q') (m_tag m) \/ AB (PS.known q') < d_clock s) /\ tag_le (PS.known q) (PS.known q')).
    { rewrite K'. destruct (P2 q eq_refl) as [A|A].
      - assert (A2 : tag_lt (PS.known q) (m_tag m)) by now apply (tag_le_lt_trans _ (d_ann s p)).
        destruct (absorb_cases (m_tag m) (PS.known q)) as [[B _]|[[B _]|[_ ->]]].
        + exfalso. apply (tag_lt_irrefl (m_tag m)). now apply (tag_lt_trans _ (PS.known q)).
        + rewrite <- B in A2. now apply tag_lt_irrefl in A2.
        + split; [left; apply tag_le_refl|now apply tag_lt_le].
      - destruct (absorb_cases (m_tag m) (PS.known q)) as [[B ->]|[[B ->]|[B ->]]].
        + split; [now right|apply tag_le_refl].
        + rewrite <- B in A |- *. split; [right; exact A|]. destruct (bump_cases (m_tag m) Mo) as [[_ ->]|[K _]]; [unfold tag_le; cbn [ttime tmicro]; lia|lia].
        + split; [left; apply tag_le_refl|now apply tag_lt_le]. }
    destruct Kn as [Kn1 Kn2].
    assert (Kp : kept_port (d_clock s) (d_ps s) ps').
    { intros q0 E0. assert (q0 = q) by congruence. subst q0. exists q'. split; [exact E'|]. split; [exact S'|]. now left. }
    destruct (P_ps s ps' GG PPs Ch Kp) as (Q1 & Q2 & Q3 & Q4).
    constructor; dproj; try assumption.
    + intros q0 E0. assert (q0 = q') by congruence. subst q0. rewrite Au. exact Kn1.
    + intros m0 H0 H1. now apply filter_other in H0.
    + unfold cur at 1. dproj. rewrite Au. destruct Ch as (-> & _). intros e t [<-|He] Ht.
      * cbn [e_from e_tag] in *. injection Ht as <-. split; [reflexivity|]. split; [intros _; exact L|apply tag_le_refl].
      * destruct (P8 e t He Ht) as (A & B & C). split; [exact A|]. split; [exact B|]. apply tag_lt_le. now apply (tag_le_lt_trans _ (d_ann s p)).
Qed.

Lemma P_absent_other s p' t s' : p' <> p -> G s -> P s -> dstep s (DAbsent p' t) = Some s' -> P s'.
Proof.
  intros n GG PPs E. pose proof PPs as [P1 P2 P3 P4 P5 P6 P7 P8 P9]. cbn [Decentralized.dstep] in E. cbv zeta in E.
  destruct (nth_error (PS.ports (d_ps s)) p') as [q|] eqn:Eq; [|discriminate]. destruct (_ && _) in E; [|discriminate].
  destruct (PS.step true start (d_ps s) (PS.OAbsent p' t)) as [ps'|] eqn:Es; [|discriminate]. injection E as <-. cbn [PS.step] in Es.
  assert (Au : upd (d_ann s) p' t p = d_ann s p) by (unfold upd; now replace (p =? p')%nat with false by (symmetry; apply Nat.eqb_neq; congruence)).
  pose proof (update_chg _ _ _ _ Es) as Ch. destruct (P_ps s ps' GG PPs Ch (kept_other _ _ _ _ _ n Es)) as (Q1 & Q2 & Q3 & Q4).
  constructor; dproj; try assumption.
  - intros q' E'. destruct (known_other _ _ _ _ _ n Es E') as (q0 & E0 & ->). rewrite Au. now apply P2.
  - intros m0 H0 H1. apply entry_ps; [now apply P3|apply Ch|exact Au].
  - unfold cur at 1. dproj. intros e t0 He Ht. rewrite Au. destruct Ch as (-> & _). now apply P8.
Qed.

Lemma P_absent s t s' : G s -> P s -> all_in_time sta staa p s' -> dstep s (DAbsent p t) = Some s' -> P s'.
Proof.
  intros GG PPs T E. pose proof PPs as [P1 P2 P3 P4 P5 P6 P7 P8 P9]. cbn [Decentralized.dstep] in E. cbv zeta in E.
  destruct (nth_error (PS.ports (d_ps s)) p) as [q|] eqn:Eq; [|discriminate]. destruct (_ && _) eqn:C in E; [|discriminate].
  destruct (PS.step true start (d_ps s) (PS.OAbsent p t)) as [ps'|] eqn:Es; [|discriminate]. injection E as <-. cbn [PS.step] in Es.
  apply andb_true_iff in C. destruct C as [C Po]. apply andb_true_iff in C. destruct C as [C An]. apply andb_true_iff in C. destruct C as [_ Id]. apply ltb_spec in An.
  pose proof (g_strip _ _ (G_ps _ GG)) as Gs. destruct (possible_fine q true t (port_delay _ _ _ Gs Eq) Po) as [Ft Ftt].
  assert (Ta : in_time sta staa (mkArr p t true (d_clock s) (d_clock s) (cur s) (d_phase s))) by (apply T; [now left|reflexivity]).
  destruct Ta as (_ & T2 & T3). cbn [a_absent a_phase a_cur a_tag a_clock a_port a_hclock] in T2, T3.
  assert (Au : upd (d_ann s) p t p = t) by (unfold upd; now rewrite Nat.eqb_refl).
  assert (Lc : tag_le (cur s) t).
  { destruct (tag_le_total (cur s) t) as [L|L]; [exact L|]. exfalso. pose proof (late_bound s q t GG PPs Eq An Ft L) as K.
    assert (K2 : d_clock s <= ADV t); [|lia]. apply T3. intros [_ K2]. rewrite K2 in L. now apply tag_lt_irrefl in L. }
  assert (Hc : d_clock s <= AB t).
  { destruct (tag_eqb (cur s) t) eqn:Et; [apply eqb_spec in Et|apply eqb_false in Et].
    - destruct (d_phase s) eqn:Ph; [| |now apply T2].
      1,2: pose proof (ADV_AB t); assert (d_clock s <= ADV t); [apply T3; intros [K _]; discriminate|lia].
    - pose proof (ADV_AB t). assert (d_clock s <= ADV t); [|lia]. apply T3. intros [_ K]. contradiction. }
  assert (Kn : tag_lt (PS.known q) t).
  { destruct (tag_le_total t (PS.known q)) as [L|L]; [|exact L]. exfalso. destruct (P2 q eq_refl) as [A|A].
    - apply (tag_lt_irrefl t). apply (tag_le_lt_trans _ (d_ann s p)); [|exact An]. now apply (tag_le_trans _ (PS.known q)).
    - pose proof (AB_mono_tag _ _ L). lia. }
  pose proof (update_chg _ _ _ _ Es) as Ch. destruct (known_update _ _ _ _ _ _ Es Eq) as (q' & E' & S' & K'). rewrite Nat.eqb_refl in K'.
  assert (K2 : PS.known q' = t).
  { rewrite K'. destruct (later_cases t (PS.cur (d_ps s))) as [[-> _]|[_ L]]; [|exfalso; fold (cur s) in L; apply (tag_lt_irrefl t); now apply (tag_lt_le_trans _ (cur s))].
    destruct (absorb_cases t (PS.known q)) as [[A _]|[[A _]|[_ A]]]; [|rewrite <- A in Kn; now apply tag_lt_irrefl in Kn|exact A]. exfalso. apply (tag_lt_irrefl t). now apply (tag_lt_trans _ (PS.known q)). }
  assert (Kp : kept_port (d_clock s) (d_ps s) ps').
  { intros q0 E0. assert (q0 = q) by congruence. subst q0. exists q'. split; [exact E'|]. split; [exact S'|]. left. rewrite K2. now apply tag_lt_le. }
  destruct (P_ps s ps' GG PPs Ch Kp) as (Q1 & Q2 & Q3 & Q4).
  constructor; dproj; try assumption.
  - intros q0 E0. assert (q0 = q') by congruence. subst q0. left. rewrite K2, Au. apply tag_le_refl.
  - intros m0 H0 H1. exfalso. apply (idle_spec s q p Eq Id). rewrite <- H1. now apply in_map.
  - unfold cur at 1. dproj. rewrite Au. destruct Ch as (-> & _). intros e t0 He Ht. destruct (P8 e t0 He Ht) as (A & B & D). split; [exact A|]. split; [exact B|].
    apply tag_lt_le. now apply (tag_le_lt_trans _ (d_ann s p)).
Qed.

Lemma P_gone s f s' : G s -> P s -> dstep s (DGone f) = Some s' -> P s'.
Proof.
  intros GG PPs E. pose proof PPs as [P1 P2 P3 P4 P5 P6 P7 P8 P9]. cbn [Decentralized.dstep] in E. cbv zeta in E.
  destruct (forallb _ _) eqn:F in E; [|discriminate]. destruct (PS.step true start (d_ps s) (PS.OGone f)) as [ps'|] eqn:Es; [|discriminate]. injection E as <-.
  pose proof (pstep_chg _ (PS.OGone f) _ Logic.I Es) as Ch. cbn [PS.step] in Es.
  assert (Lf : PP.later FOREVER_TAG (PS.cur (d_ps s)) = FOREVER_TAG).
  { destruct (later_cases FOREVER_TAG (PS.cur (d_ps s))) as [[-> _]|[_ L]]; [reflexivity|]. exfalso. pose proof (tag_forever_greatest _ (cur_ok _ GG)) as K. apply (tag_lt_irrefl FOREVER_TAG). now apply (tag_lt_le_trans _ (cur s)). }
  assert (Kp : kept_port (d_clock s) (d_ps s) ps').
  { intros q Eq. destruct (known_gone _ _ _ _ _ Es Eq) as (q' & E' & S' & K'). exists q'. split; [exact E'|]. split; [exact S'|]. rewrite K', Lf. destruct (PS.source q =? f)%nat; [|apply okc_same].
    destruct (absorb_cases FOREVER_TAG (PS.known q)) as [[A ->]|[[A ->]|[A ->]]]; [apply okc_same|right; right; reflexivity|left; now apply tag_lt_le]. }
  destruct (P_ps s ps' GG PPs Ch Kp) as (Q1 & Q2 & Q3 & Q4).
  constructor; dproj; try assumption.
  - intros q' E'. destruct (kept_back _ _ _ _ (proj1 (proj2 Ch)) Kp E') as (q & Eq & S' & _). destruct (known_gone _ _ _ _ _ Es Eq) as (q2 & E2 & _ & K'). assert (q2 = q') by congruence. subst q2.
    rewrite Eq, K', Lf. destruct (PS.source q =? f)%nat; [|now apply P2]. left. destruct (g_known _ _ (G_ps _ GG) p q Eq) as [Ko _]. 
    destruct (absorb_cases FOREVER_TAG (PS.known q)) as [[A ->]|[[A ->]|[A ->]]]; [now apply tag_forever_greatest|unfold bump; cbn; tag_consts; lia|apply tag_le_refl].
  - intros m0 H0 H1. apply entry_ps; [now apply P3|apply Ch|]. rewrite forallb_forall in F. specialize (F m0 H0). rewrite H1 in F. destruct (nth_error (PS.ports (d_ps s)) p) as [q|]; [|reflexivity]. now destruct (PS.source q =? f)%nat.
  - unfold cur at 1. dproj. destruct Ch as (-> & _). intros e t0 He Ht. destruct (P8 e t0 He Ht) as (A & B & D). split; [exact A|]. split; [exact B|].
    destruct (nth_error (PS.ports (d_ps s)) p) as [q|]; [|exact D]. destruct (PS.source q =? f)%nat; [|exact D]. apply tag_forever_greatest. rewrite <- A. apply (G_queue _ GG e He).
Qed.

Lemma P_start s s' : G s -> P s -> dstep s DStart = Some s' -> P s'.
Proof.
  intros GG PPs E. pose proof PPs as [P1 P2 P3 P4 P5 P6 P7 P8 P9]. cbn [Decentralized.dstep] in E. cbv zeta in E.
  destruct (d_phase s) eqn:Ph; try discriminate. destruct (expired _ _) in E; [|discriminate]. injection E as <-. destruct start_facts as (B1 & B2 & B3).
  constructor; dproj; try assumption; try discriminate.
  - intros m Hm Ep. destruct (P3 m Hm Ep) as (A & B). destruct (reading_tag _ _ GG Hm) as ((Mo & Ms) & _). unfold entry, cur. dproj. cbn [PS.cur]. split; [exact A|].
    pose proof (g_cur _ _ (G_ps _ GG)) as Gc. rewrite Ph in Gc. fold (cur s) in Gc. rewrite Gc in B. destruct B as [(C & D)|(C & D & _)].
    + apply tag_le_lt_or_eq in Ms. destruct Ms as [Ms|Ms]; [left; now split|]. right. rewrite <- Ms in D |- *. split; [apply tag_le_refl|]. split; [|intros K; now apply tag_lt_irrefl in K].
      eapply tag_le_trans; [exact D|]. unfold bump. cbn [ttime tmicro]. change ((0 + 1) mod two32) with 1. tag_consts; lia.
    + assert (Z0 : sta = 0) by (revert C Ms; tag_consts; lia). rewrite Z0, Z.sub_0_r in *. right. split; [exact C|]. split; [exact D|]. intros K. exfalso. apply (tag_lt_irrefl st0). now apply (tag_le_lt_trans _ (m_tag m)).
  - intros e t He Ht. destruct (P8 e t He Ht) as (A & _ & C). split; [exact A|]. split; [discriminate|exact C].
Qed.

Lemma popped_in l c x : In x (popped l c) -> exists e t, In e l /\ e_tag e = c /\ e_from e = Some (x_port x, t) /\ x = mkExec (x_port x) t c (-1) (tag_ltb t c).
Proof.
  unfold popped. rewrite in_flat_map. intros (e & He & Hx). destruct (tag_eqb (e_tag e) c) eqn:Et; [|contradiction]. apply eqb_spec in Et.
  destruct (e_from e) as [[p' t]|] eqn:Ef; [|contradiction]. destruct Hx as [<-|[]]. cbn [x_port]. exists e, t. auto.
Qed.
Lemma P_started s s' : G s -> P s -> dstep s DStarted = Some s' -> P s'.
Proof.
  intros GG PPs E. pose proof PPs as [P1 P2 P3 P4 P5 P6 P7 P8 P9]. cbn [Decentralized.dstep] in E. cbv zeta in E.
  destruct (d_phase s) eqn:Ph; try discriminate. destruct (passes s st0) in E; [|discriminate]. injection E as <-.
  pose proof (g_cur _ _ (G_ps _ GG)) as Gc. rewrite Ph in Gc. fold (cur s) in Gc. pose proof (g_strip _ _ (G_ps _ GG)) as Gs.
  constructor; dproj; try assumption.
  - intros _ q Eq t [_ Ft] L. exfalso. unfold cur in L. dproj_in L. fold (cur s) in L. rewrite Gc in L. apply (tag_lt_irrefl t). now apply (tag_lt_le_trans _ st0).
  - intros e t He Ht. apply rest_in in He. destruct He as [He Ne]. destruct (P8 e t He Ht) as (A & _ & C). split; [exact A|]. split; [|exact C]. intros _. unfold cur. dproj. fold (cur s). rewrite Gc.
    destruct (G_queue _ GG e He) as ((_ & K) & _). rewrite A in *. apply tag_le_lt_or_eq in K. destruct K as [K|K]; [exact K|congruence].
  - intros x Hx Xp. apply in_app_or in Hx. destruct Hx as [Hx|Hx]; [|now apply P9].
    assert (K : forall q, nth_error (PS.ports (d_ps s)) p = Some q -> exists q0, nth_error ports0 p = Some q0 /\ PS.level q = PS.level q0).
    { intros q Eq. destruct (port0 _ _ _ Gs Eq) as (q0 & E0 & S0). exists q0. split; [exact E0|]. now destruct (strip_eq _ _ S0) as (_ & K & _). }
    destruct (popped_in _ _ _ Hx) as (e & t & He & Et & Ef & X). rewrite Xp in Ef. destruct (P8 e t He Ef) as (A & _ & _). assert (t = st0) by congruence. clear A. subst t.
    rewrite X. cbn [x_tag x_intended x_violation x_level]. split; [reflexivity|]. split; [apply ltb_false, tag_le_refl|]. intros q Eq. destruct (port_facts _ _ _ Gs Eq) as (K1 & _). lia.
Qed.

Lemma P_enter s l s' : G s -> P s -> dstep s (DEnter l) = Some s' -> P s'.
Proof.
  intros GG PPs E. pose proof PPs as [P1 P2 P3 P4 P5 P6 P7 P8 P9]. cbn [Decentralized.dstep] in E. cbv zeta in E.
  destruct (_ && _) eqn:C in E; [|discriminate]. injection E as <-. constructor; dproj; try assumption.
  intros q Eq O. left. pose proof (g_lim _ _ (G_ps _ GG) p q Eq O) as Lm. booly. unfold PS.may_enter in H0. apply negb_true_iff in H0. apply Z.leb_gt in H0. lia.
Qed.

Lemma P_assume s p' s' : G s -> P s -> dstep s (DAssume p') = Some s' -> P s'.
Proof.
  intros GG PPs E. pose proof PPs as [P1 P2 P3 P4 P5 P6 P7 P8 P9]. cbn [Decentralized.dstep] in E. cbv zeta in E.
  destruct (nth_error (PS.ports (d_ps s)) p') as [q|] eqn:Eq; [|discriminate]. destruct (absent_time sta staa p' (cur s)) as [u|] eqn:Eu; [|discriminate]. destruct (_ && _) eqn:C in E; [|discriminate].
  destruct (PS.step true start (d_ps s) (PS.OAssumeAbsent p')) as [ps'|] eqn:Es; [|discriminate]. injection E as <-. cbn [PS.step] in Es.
  pose proof (update_chg _ _ _ _ Es) as Ch. destruct (Nat.eq_dec p' p) as [Ep|n].
  - subst p'. assert (Hb : AB (cur s) < d_clock s).
    { booly. unfold running in H. pose proof (g_ok _ _ (G_ps _ GG)) as Go. destruct (d_phase s); try discriminate. cbn [eff] in Go. fold (cur s) in Go. destruct Go as (_ & G1 & G2). apply (absent_time_bound (cur s) u); try assumption.
      destruct start_facts as (B1 & B2 & B3). revert G1. unfold tag_le. cbn [ttime tmicro]. lia. }
    destruct (known_update _ _ _ _ _ _ Es Eq) as (q' & E' & S' & K'). rewrite Nat.eqb_refl in K'.
    assert (Lt : PP.later (PS.cur (d_ps s)) (PS.cur (d_ps s)) = cur s) by (destruct (later_cases (PS.cur (d_ps s)) (PS.cur (d_ps s))) as [[-> _]|[-> _]]; reflexivity). rewrite Lt in K'.
    assert (Kn : (PS.known q' = PS.known q \/ AB (PS.known q') < d_clock s) /\ okc (d_clock s) (PS.known q) (PS.known q')).
    { rewrite K'. destruct (absorb_cases (cur s) (PS.known q)) as [[A ->]|[[A ->]|[A ->]]].
      - split; [now left|apply okc_same].
      - split; [right; exact Hb|]. right. left. now rewrite <- A.
      - split; [now right|]. left. now apply tag_lt_le. }
    destruct Kn as [Kn1 Kn2].
    assert (Kp : kept_port (d_clock s) (d_ps s) ps') by (intros q0 E0; assert (q0 = q) by congruence; subst q0; exists q'; auto).
    destruct (P_ps s ps' GG PPs Ch Kp) as (Q1 & Q2 & Q3 & Q4).
    constructor; dproj; try assumption.
    + intros q0 E0. assert (q0 = q') by congruence. subst q0. destruct Kn1 as [->|K]; [now apply P2|now right].
    + intros m0 H0 H1. apply entry_ps; [now apply P3|apply Ch|reflexivity].
    + unfold cur at 1. dproj. destruct Ch as (-> & _). exact P8.
  - destruct (P_ps s ps' GG PPs Ch (kept_other _ _ _ _ _ n Es)) as (Q1 & Q2 & Q3 & Q4).
    constructor; dproj; try assumption.
    + intros q' E'. destruct (known_other _ _ _ _ _ n Es E') as (q0 & E0 & ->). now apply P2.
    + intros m0 H0 H1. apply entry_ps; [now apply P3|apply Ch|reflexivity].
    + unfold cur at 1. dproj. destruct Ch as (-> & _). exact P8.
Qed.

Lemma wait_J s n u q : G s -> P s -> nth_error (PS.ports (d_ps s)) p = Some q -> fine n -> ttime n < FOREVER -> PS.wait_until_time start sta (d_ps s) n = Ok u -> expired (d_clock s) u = true -> J (PS.known q) (d_clock s) n.
Proof.
  intros GG PPs Eq [No Ns] Nf E X t [To Ts] L. unfold expired in X. apply Z.ltb_lt in X. destruct start_facts as (B1 & B2 & B3). unfold PS.wait_until_time in E.
  destruct (negb (ttime n =? start) || negb (tmicro n =? 0)) eqn:C.
  - set (b := if 0 <? tmicro n then mkTag (ttime n) (tmicro n - 1) else mkTag (ttime n - 1) UINT_MAX) in *.
    destruct (PS.inputs_known_to (d_ps s) b) eqn:K.
    + left. unfold PS.inputs_known_to in K. rewrite forallb_forall in K. specialize (K q (nth_error_In _ _ Eq)). apply negb_true_iff in K. apply RtiProofs.cmp_lt0_false in K. apply (tag_le_trans _ b); [|exact K].
      unfold b. destruct (0 <? tmicro n) eqn:M; revert L M; tag_consts; lia.
    + right. apply time_add_defined in E; [|tag_consts; lia|tag_consts; lia]. pose proof (P_clock _ PPs) as Hk. pose proof (ADV_mono t n (tag_lt_le _ _ L)) as Hm. unfold advance_bound in *.
      assert (u = Z.min FOREVER (ttime n + sta)) by (rewrite E; unfold sat_sum, clamp64, FOREVER in *; repeat case_if; tag_consts; lia). unfold MIN_SLEEP in *. lia.
  - exfalso. apply orb_false_iff in C. destruct C as [C1 C2]. apply negb_false_iff, Z.eqb_eq in C1, C2. revert L Ts. unfold tag_lt, tag_le. cbn [ttime tmicro]. lia.
Qed.

Lemma P_next s s' : G s -> P s -> dstep s DNext = Some s' -> P s'.
Proof.
  intros GG PPs E. pose proof PPs as [P1 P2 P3 P4 P5 P6 P7 P8 P9]. cbn [Decentralized.dstep] in E. cbv zeta in E.
  destruct (_ && _) in E; [|discriminate]. destruct (earliest (d_queue s)) as [n|] eqn:Ee; [|discriminate]. destruct (PS.wait_until_time _ _ _ _) as [u|] eqn:Eu; [|discriminate]. destruct (expired _ _) eqn:X in E; [|discriminate]. injection E as <-.
  constructor; dproj; try assumption. intros n0 En q Eq. injection En as <-. destruct (earliest_in _ _ Ee) as (e & He & Et). destruct (G_queue _ GG e He) as [A B]. rewrite Et in A, B. now apply (wait_J s n u q).
Qed.

Lemma P_advance s s' : G s -> P s -> dstep s DAdvance = Some s' -> P s'.
Proof.
  intros GG PPs E. pose proof PPs as [P1 P2 P3 P4 P5 P6 P7 P8 P9]. cbn [Decentralized.dstep] in E. cbv zeta in E.
  destruct (d_waited s) as [n|] eqn:Ew; [|discriminate]. destruct (earliest (d_queue s)) as [n'|] eqn:Ee; [|discriminate]. destruct (_ && _) eqn:C in E; [|discriminate].
  apply andb_true_iff in C. destruct C as [Cp Cl]. apply ltb_spec in Cl.
  destruct (G_waited _ GG n Ew) as (Ph & Nf & n1 & E1 & Ln). assert (n1 = n') by congruence. subst n1.
  destruct (earliest_in _ _ Ee) as (e0 & He0 & Et0). destruct (G_queue _ GG e0 He0) as [Fn Fnt]. rewrite Et0 in Fn, Fnt.
  cbn [PS.step] in E. injection E as <-.
  set (ps1 := PS.update_max_level true start (PS.mkFed (PS.ports (d_ps s)) n' (PS.last_grant (d_ps s)) (PS.provisional (d_ps s)) (PS.mlaa (d_ps s))) (PS.last_grant (d_ps s)) (PS.provisional (d_ps s))).
  destruct (pop_fold (popped (d_queue s) n') ps1) as (A1 & A2 & A3). set (ps2 := fold_left pop_known (popped (d_queue s) n') ps1) in *.
  change (PS.cur ps1) with n' in A1. change (PS.ports ps1) with (PS.ports (d_ps s)) in A2, A3.
  set (ps3 := PS.update_max_level true start ps2 (PS.last_grant ps2) (PS.provisional ps2)).
  assert (C3 : PS.cur ps3 = n') by exact A1. assert (S3 : map strip (PS.ports ps3) = map strip (PS.ports (d_ps s))) by exact A2.
  assert (Q : forall q', nth_error (PS.ports ps3) p = Some q' -> exists q, nth_error (PS.ports (d_ps s)) p = Some q /\ strip q' = strip q /\ PS.known q' = PS.known q).
  { intros q' E'. symmetry in S3. destruct (strip_nth _ _ _ _ S3 E') as (q & Eq & _). destruct (A3 p q Eq) as (q2 & E2 & S2 & K2). assert (q2 = q') by (change (PS.ports ps3) with (PS.ports ps2) in E'; congruence). subst q2.
    exists q. split; [exact Eq|]. split; [exact S2|]. destruct K2 as [K2|(_ & _ & y & Y1 & Y2 & Y3)]; [exact K2|]. exfalso.
    destruct (popped_in _ _ _ Y1) as (e & t & He & Et & Ef & X). rewrite Y2 in Ef. destruct (P8 e t He Ef) as (A & _ & _). assert (t = n') by congruence. clear A. subst t. rewrite X in Y3. cbn [x_violation] in Y3. apply ltb_spec in Y3. now apply tag_lt_irrefl in Y3. }
  assert (Jn : forall k, J k (d_clock s) n -> J k (d_clock s) n') by (intros k K t Ft L; apply K; [exact Ft|now apply (tag_lt_le_trans _ n')]).
  pose proof (g_strip _ _ (G_ps _ GG)) as Gs.
  constructor; dproj; try assumption.
  - intros q' E'. destruct (Q q' E') as (q & Eq & _ & ->). now apply P2.
  - intros m Hm Ep. destruct (P3 m Hm Ep) as (A & B). destruct (reading_tag _ _ GG Hm) as ((Mo & Ms) & _). unfold entry, cur. dproj. change (PS.cur (PS.update_max_level true start ps2 (PS.last_grant ps2) (PS.provisional ps2))) with (PS.cur ps3). rewrite C3. split; [exact A|].
    unfold passes in Cp. destruct (d_reading s) as [|m1 r]; [contradiction|]. replace (ttime n =? FOREVER) with false in Cp by lia. cbn [orb] in Cp. apply ltb_spec in Cp.
    pose proof (tag_le_lt_trans _ _ _ Ln Cp) as L. destruct B as [(B1 & B2)|(B1 & B2 & _)].
    + left. split; [|exact B2]. now apply (tag_lt_le_trans _ (d_horizon s)).
    + exfalso. pose proof (tag_lt_le_trans _ _ _ L B2) as L2. apply (below_bump _ _ (cur_ok _ GG) (proj1 Fn)) in L2. apply (tag_lt_irrefl n'). now apply (tag_le_lt_trans _ (cur s)).
  - intros _ q' E'. destruct (Q q' E') as (q & Eq & _ & ->). unfold cur. dproj. change (PS.cur (PS.update_max_level true start ps2 (PS.last_grant ps2) (PS.provisional ps2))) with (PS.cur ps3). rewrite C3. apply Jn. now apply (P5 n).
  - intros n0 K. discriminate.
  - intros q' E' _. left. assert (Es : map strip (PS.ports ps3) = map strip ports0) by congruence. destruct (port_facts _ _ _ Es E') as (K & _). lia.
  - intros e t He Ht. apply rest_in in He. destruct He as [He Ne]. destruct (P8 e t He Ht) as (A & B & D). split; [exact A|]. split; [|exact D]. intros _. unfold cur. dproj.
    change (PS.cur (PS.update_max_level true start ps2 (PS.last_grant ps2) (PS.provisional ps2))) with (PS.cur ps3). rewrite C3.
    pose proof (earliest_le _ _ _ Ee He) as K. rewrite A in K, Ne. apply tag_le_lt_or_eq in K. destruct K as [K|K]; [exact K|congruence].
  - intros x Hx Xp. apply in_app_or in Hx. destruct Hx as [Hx|Hx].
    + destruct (popped_in _ _ _ Hx) as (e & t & He & Et & Ef & X). rewrite Xp in Ef. destruct (P8 e t He Ef) as (A & _ & _). assert (t = n') by congruence. clear A. subst t.
      rewrite X. cbn [x_tag x_intended x_violation x_level]. split; [reflexivity|]. split; [apply ltb_false, tag_le_refl|]. intros q' E'. destruct (Q q' E') as (q & Eq & S' & _). destruct (strip_eq _ _ S') as (_ & -> & _ & _). destruct (port_facts _ _ _ Gs Eq) as (K1 & _). lia.
    + destruct (P9 x Hx Xp) as (A & B & D). split; [exact A|]. split; [exact B|]. intros q' E'. destruct (Q q' E') as (q & Eq & S' & _). destruct (strip_eq _ _ S') as (_ & -> & _ & _). now apply D.
Qed.

Lemma P_step s o s' : G s -> P s -> all_in_time sta staa p s' -> dstep s o = Some s' -> P s'.
Proof.
  intros GG PPs T E. destruct o as [d|t|p' t|p'|p' t|f| | |l|p'| |].
  - exact (P_tick s d s' GG PPs E).
  - exact (P_local s t s' PPs E).
  - exact (P_header s p' t s' GG PPs E).
  - destruct (Nat.eq_dec p' p) as [->|n]; [exact (P_msg s s' GG PPs T E)|exact (P_msg_other s p' s' n GG PPs E)].
  - destruct (Nat.eq_dec p' p) as [->|n]; [exact (P_absent s t s' GG PPs T E)|exact (P_absent_other s p' t s' n GG PPs E)].
  - exact (P_gone s f s' GG PPs E).
  - exact (P_start s s' GG PPs E).
  - exact (P_started s s' GG PPs E).
  - exact (P_enter s l s' GG PPs E).
  - exact (P_assume s p' s' GG PPs E).
  - exact (P_next s s' GG PPs E).
  - exact (P_advance s s' GG PPs E).
Qed.

Lemma P_init clock : clock < FOREVER - MIN_SLEEP -> P (dinit start sta clock ports0).
Proof.
  intros Hc. unfold dinit. cbv zeta. constructor; dproj; try (intros; contradiction); try discriminate; try assumption; try reflexivity.
  - intros q Eq. cbn [PS.ports] in Eq. left. destruct Hcfg as (_ & _ & _ & _ & H). destruct (H p q Eq) as (_ & -> & _). apply tag_le_refl.
  - intros q Eq _. left. cbn [PS.ports] in Eq. destruct Hcfg as (_ & _ & _ & _ & H). destruct (H p q Eq) as ((_ & K & _) & _). lia.
Qed.
End OnePort.

Lemma arrived_step s o s' : dstep s o = Some s' -> incl (d_arrived s) (d_arrived s').
Proof.
  intros E. destruct o; cbn [Decentralized.dstep] in E; cbv zeta in E.
  - destruct (_ && _) in E; [|discriminate]. injection E as <-. apply incl_refl.
  - destruct (_ && _) in E; [|discriminate]. injection E as <-. apply incl_refl.
  - destruct (nth_error _ _); [|discriminate]. destruct (_ && _) in E; [|discriminate]. injection E as <-. apply incl_refl.
  - destruct (nth_error _ _) as [q|]; [|discriminate]. destruct (find _ _) as [m|]; [|discriminate]. destruct (now _ _ _ _ _).
    + destruct (PS.step _ _ _ _); [|discriminate]. injection E as <-. apply incl_tl, incl_refl.
    + destruct (PS.step _ _ _ _); [|discriminate]. destruct (slot _ _ _). injection E as <-. apply incl_tl, incl_refl.
  - destruct (nth_error _ _); [|discriminate]. destruct (_ && _) in E; [|discriminate]. destruct (PS.step _ _ _ _); [|discriminate]. injection E as <-. apply incl_tl, incl_refl.
  - destruct (forallb _ _) in E; [|discriminate]. destruct (PS.step _ _ _ _); [|discriminate]. injection E as <-. apply incl_refl.
  - destruct (d_phase s); try discriminate. destruct (expired _ _) in E; [|discriminate]. injection E as <-. apply incl_refl.
  - destruct (d_phase s); try discriminate. destruct (passes _ _) in E; [|discriminate]. injection E as <-. apply incl_refl.
  - destruct (_ && _) in E; [|discriminate]. injection E as <-. apply incl_refl.
  - destruct (nth_error _ _); [|discriminate]. destruct (absent_time _ _ _ _); [|discriminate]. destruct (_ && _) in E; [|discriminate]. destruct (PS.step _ _ _ _); [|discriminate]. injection E as <-. apply incl_refl.
  - destruct (_ && _) in E; [|discriminate]. destruct (earliest _); [|discriminate]. destruct (PS.wait_until_time _ _ _ _); [|discriminate]. destruct (expired _ _) in E; [|discriminate]. injection E as <-. apply incl_refl.
  - destruct (d_waited s); [|discriminate]. destruct (earliest _); [|discriminate]. destruct (_ && _) in E; [|discriminate]. destruct (PS.step _ _ _ _); [|discriminate]. injection E as <-. apply incl_refl.
Qed.
Notation drun := (drun start sta staa index).
Lemma arrived_run l : forall s s', drun s l = Some s' -> incl (d_arrived s) (d_arrived s').
Proof.
  induction l as [|o l IH]; intros s s' E; cbn [Decentralized.drun] in E; [injection E as <-; apply incl_refl|].
  destruct (dstep s o) as [s1|] eqn:E1; [|discriminate]. eapply incl_tran; [apply (arrived_step _ _ _ E1)|now apply IH].
Qed.
Lemma G_run l : forall s s', G s -> drun s l = Some s' -> G s'.
Proof.
  induction l as [|o l IH]; intros s s' GG E; cbn [Decentralized.drun] in E; [now injection E as <-|].
  destruct (dstep s o) as [s1|] eqn:E1; [|discriminate]. apply (IH s1); [now apply (G_step s o)|exact E].
Qed.
Lemma P_run p l : forall s s', G s -> P p s -> all_in_time sta staa p s' -> drun s l = Some s' -> P p s'.
Proof.
  induction l as [|o l IH]; intros s s' GG PPs T E; cbn [Decentralized.drun] in E; [now injection E as <-|].
  destruct (dstep s o) as [s1|] eqn:E1; [|discriminate]. apply (IH s1); try assumption; [now apply (G_step s o)|]. apply (P_step p s o); try assumption.
  intros a Ha. apply T. now apply (arrived_run _ _ _ E).
Qed.

(** ** Nothing is lost or made up *)
Definition pend (p : nat) (l : list event) : list tag :=
  flat_map (fun e => match e_from e with Some (p', t) => if (p' =? p)%nat then [t] else [] | None => [] end) l.
Definition exed (p : nat) (l : list exec) : list tag := map x_intended (filter (fun x => (x_port x =? p)%nat) l).
Lemma exed_app p a b : exed p (a ++ b) = exed p a ++ exed p b.
Proof. unfold exed. now rewrite filter_app, map_app. Qed.
Lemma pop_perm p l c : Permutation (exed p (popped l c) ++ pend p (rest l c)) (pend p l).
Proof.
  induction l as [|e l IH]; [constructor|]. change (popped (e :: l) c) with ((if tag_eqb (e_tag e) c then match e_from e with Some (p, t) => [mkExec p t c (-1) (tag_ltb t c)] | None => [] end else []) ++ popped l c).
  rewrite exed_app. change (pend p (e :: l)) with ((match e_from e with Some (p', t) => if (p' =? p)%nat then [t] else [] | None => [] end) ++ pend p l).
  unfold rest. cbn [filter]. fold (rest l c). destruct (tag_eqb (e_tag e) c); cbn [negb].
  - rewrite <- app_assoc. apply Permutation_app; [|exact IH]. destruct (e_from e) as [[p' t]|]; [|constructor]. unfold exed. cbn [filter x_port]. destruct (p' =? p)%nat; [apply Permutation_refl|constructor].
  - change (exed p []) with (@nil tag). cbn [app]. change (pend p (e :: rest l c)) with ((match e_from e with Some (p', t) => if (p' =? p)%nat then [t] else [] | None => [] end) ++ pend p (rest l c)).
    rewrite app_assoc. eapply perm_trans; [apply Permutation_app_tail, Permutation_app_comm|]. rewrite <- app_assoc. now apply Permutation_app_head.
Qed.
Lemma kept_step p s o s' : Permutation (executed_on p s ++ pending_on p s) (arrived_on p s) -> dstep s o = Some s' ->
  Permutation (executed_on p s' ++ pending_on p s') (arrived_on p s').
Proof.
  intros K E. unfold executed_on, pending_on in *. fold (exed p (d_exec s)) in K. fold (exed p (d_exec s')). fold (pend p (d_queue s)) in K. fold (pend p (d_queue s')).
  unfold arrived_on in *. destruct o; cbn [Decentralized.dstep] in E; cbv zeta in E.
  - destruct (_ && _) in E; [|discriminate]. injection E as <-. exact K.
  - destruct (_ && _) in E; [|discriminate]. injection E as <-. exact K.
  - destruct (nth_error _ _); [|discriminate]. destruct (_ && _) in E; [|discriminate]. injection E as <-. exact K.
  - destruct (nth_error _ _) as [q|]; [|discriminate]. destruct (find _ _) as [m|] eqn:Ef; [|discriminate]. destruct (now _ _ _ _ _).
    + destruct (PS.step _ _ _ _); [|discriminate]. injection E as <-. dproj. cbn [filter a_port a_absent negb]. rewrite andb_true_r. unfold exed. cbn [filter x_port].
      destruct (p0 =? p)%nat; [|exact K]. cbn [map x_intended a_tag app]. now constructor.
    + destruct (PS.step _ _ _ _); [|discriminate]. destruct (slot _ _ _) as [t' b]. injection E as <-. dproj. cbn [filter a_port a_absent negb]. rewrite andb_true_r.
      change (pend p (mkEvent t' (Some (p0, m_tag m)) :: d_queue s)) with ((if (p0 =? p)%nat then [m_tag m] else []) ++ pend p (d_queue s)).
      destruct (p0 =? p)%nat; [|exact K]. cbn [map a_tag app]. eapply perm_trans; [apply Permutation_sym, Permutation_middle|]. now constructor.
  - destruct (nth_error _ _); [|discriminate]. destruct (_ && _) in E; [|discriminate]. destruct (PS.step _ _ _ _); [|discriminate]. injection E as <-. dproj. cbn [filter a_port a_absent negb]. rewrite andb_false_r. exact K.
  - destruct (forallb _ _) in E; [|discriminate]. destruct (PS.step _ _ _ _); [|discriminate]. injection E as <-. exact K.
  - destruct (d_phase s); try discriminate. destruct (expired _ _) in E; [|discriminate]. injection E as <-. exact K.
  - destruct (d_phase s); try discriminate. destruct (passes _ _) in E; [|discriminate]. injection E as <-. dproj. rewrite exed_app. eapply perm_trans; [|exact K].
    rewrite <- app_assoc. rewrite app_assoc. eapply perm_trans; [apply Permutation_app_tail, Permutation_app_comm|]. rewrite <- app_assoc. apply Permutation_app_head, pop_perm.
  - destruct (_ && _) in E; [|discriminate]. injection E as <-. exact K.
  - destruct (nth_error _ _); [|discriminate]. destruct (absent_time _ _ _ _); [|discriminate]. destruct (_ && _) in E; [|discriminate]. destruct (PS.step _ _ _ _); [|discriminate]. injection E as <-. exact K.
  - destruct (_ && _) in E; [|discriminate]. destruct (earliest _); [|discriminate]. destruct (PS.wait_until_time _ _ _ _); [|discriminate]. destruct (expired _ _) in E; [|discriminate]. injection E as <-. exact K.
  - destruct (d_waited s); [|discriminate]. destruct (earliest _); [|discriminate]. destruct (_ && _) in E; [|discriminate]. destruct (PS.step _ _ _ _); [|discriminate]. injection E as <-. dproj. rewrite exed_app. eapply perm_trans; [|exact K].
    rewrite <- app_assoc. rewrite app_assoc. eapply perm_trans; [apply Permutation_app_tail, Permutation_app_comm|]. rewrite <- app_assoc. apply Permutation_app_head, pop_perm.
Qed.
Lemma kept_run p l : forall s s', Permutation (executed_on p s ++ pending_on p s) (arrived_on p s) -> drun s l = Some s' ->
  Permutation (executed_on p s' ++ pending_on p s') (arrived_on p s').
Proof.
  induction l as [|o l IH]; intros s s' K E; cbn [Decentralized.drun] in E; [now injection E as <-|].
  destruct (dstep s o) as [s1|] eqn:E1; [|discriminate]. apply (IH s1); [now apply (kept_step p s o)|exact E].
Qed.
(** ** The tags announced on a port increase *)
Record U (s : dfed) : Prop := mkU {
  U_reading : forall m, In m (d_reading s) -> tag_lt (d_ann s (m_port m)) (m_tag m);
  U_arrived : forall a, In a (d_arrived s) -> tag_le (a_tag a) (d_ann s (a_port a)) /\ tag_ok (a_tag a);
  U_once : forall p, NoDup (arrived_on p s) }.
Lemma upd_same {A} (f : nat -> A) i x : upd f i x i = x.
Proof. unfold upd. now rewrite Nat.eqb_refl. Qed.
Lemma upd_other {A} (f : nat -> A) i j x : j <> i -> upd f i x j = f j.
Proof. intros n. unfold upd. now replace (j =? i)%nat with false by (symmetry; now apply Nat.eqb_neq). Qed.

Lemma U_new s p t ab hc c k ph : U s -> tag_lt (d_ann s p) t -> tag_ok t ->
  let ann := upd (d_ann s) p t in let arr := mkArr p t ab hc c k ph :: d_arrived s in
  (forall a, In a arr -> tag_le (a_tag a) (ann (a_port a)) /\ tag_ok (a_tag a)) /\
  forall p0, NoDup (map a_tag (filter (fun a => (a_port a =? p0)%nat && negb (a_absent a)) arr)).
Proof.
  intros [U1 U2 U3] L Ht ann arr. split.
  - intros a [<-|Ha]; [cbn [a_tag a_port]; unfold ann; rewrite upd_same; split; [apply tag_le_refl|exact Ht]|]. destruct (U2 a Ha) as [A B]. split; [|exact B]. unfold ann. destruct (Nat.eq_dec (a_port a) p) as [E|n].
    + rewrite E, upd_same in *. apply tag_lt_le. now apply (tag_le_lt_trans _ (d_ann s p)).
    + now rewrite upd_other.
  - intros p0. unfold arr. cbn [filter a_port a_absent]. destruct (p =? p0)%nat eqn:Ep; cbn [andb]; [|apply U3]. destruct (negb ab); [|apply U3]. cbn [map a_tag]. constructor; [|apply U3].
    apply Nat.eqb_eq in Ep. subst p0. intros K. apply in_map_iff in K. destruct K as (a & Ea & Ha). apply filter_In in Ha. destruct Ha as [Ha Hp]. apply andb_true_iff in Hp. destruct Hp as [Hp _]. apply Nat.eqb_eq in Hp.
    destruct (U2 a Ha) as [A _]. rewrite Hp, Ea in A. apply (tag_lt_irrefl t). now apply (tag_le_lt_trans _ (d_ann s p)).
Qed.

Lemma U_step s o s' : G s -> U s -> dstep s o = Some s' -> U s'.
Proof.
  intros GG UU E. pose proof UU as [U1 U2 U3]. pose proof (g_strip _ _ (G_ps _ GG)) as Gs. destruct o; cbn [Decentralized.dstep] in E; cbv zeta in E.
  - destruct (_ && _) in E; [|discriminate]. injection E as <-. now constructor.
  - destruct (_ && _) in E; [|discriminate]. injection E as <-. now constructor.
  - destruct (nth_error _ _); [|discriminate]. destruct (_ && _) eqn:C in E; [|discriminate]. injection E as <-. booly. constructor; dproj; try assumption. intros m [<-|Hm]; [assumption|now apply U1].
  - destruct (nth_error (PS.ports (d_ps s)) p) as [q|] eqn:Eq; [|discriminate]. destruct (find _ _) as [m|] eqn:Ef; [|discriminate]. destruct (find_port _ _ _ Ef) as [Hm Hp]. destruct (reading_tag _ _ GG Hm) as ((Mo & _) & _).
    pose proof (U1 m Hm) as L. rewrite Hp in L. pose proof (U_new s p (m_tag m) false (m_clock m) (d_clock s) (cur s) (d_phase s) UU L Mo) as [N1 N2].
    assert (R : forall m0, In m0 (filter (fun m => negb (m_port m =? p)%nat) (d_reading s)) -> tag_lt (upd (d_ann s) p (m_tag m) (m_port m0)) (m_tag m0)).
    { intros m0 H0. pose proof (filter_other _ _ _ H0) as n. rewrite upd_other by exact n. apply U1. now apply filter_In in H0. }
    destruct (now _ _ _ _ _).
    + destruct (PS.step _ _ _ _); [|discriminate]. injection E as <-. now constructor.
    + destruct (PS.step _ _ _ _); [|discriminate]. destruct (slot _ _ _). injection E as <-. now constructor.
  - destruct (nth_error (PS.ports (d_ps s)) p) as [q|] eqn:Eq; [|discriminate]. destruct (_ && _) eqn:C in E; [|discriminate]. destruct (PS.step _ _ _ _); [|discriminate]. injection E as <-.
    apply andb_true_iff in C. destruct C as [C Po]. apply andb_true_iff in C. destruct C as [C An]. apply andb_true_iff in C. destruct C as [_ Id]. apply ltb_spec in An.
    destruct (possible_fine q true t (port_delay _ _ _ Gs Eq) Po) as [[Ft _] _].
    pose proof (U_new s p t true (d_clock s) (d_clock s) (cur s) (d_phase s) UU An Ft) as [N1 N2]. constructor; dproj; try assumption.
    intros m Hm. rewrite upd_other; [now apply U1|]. intros K. apply (idle_spec s q p Eq Id). rewrite <- K. now apply in_map.
  - destruct (forallb _ _) eqn:F in E; [|discriminate]. destruct (PS.step _ _ _ _); [|discriminate]. injection E as <-. constructor; dproj; try assumption.
    + intros m Hm. rewrite forallb_forall in F. specialize (F m Hm). destruct (nth_error (PS.ports (d_ps s)) (m_port m)) as [q|]; [|now apply U1]. destruct (PS.source q =? f)%nat; [discriminate|now apply U1].
    + intros a Ha. destruct (U2 a Ha) as [A B]. split; [|exact B]. destruct (nth_error (PS.ports (d_ps s)) (a_port a)) as [q|]; [|exact A]. destruct (PS.source q =? f)%nat; [now apply tag_forever_greatest|exact A].
  - destruct (d_phase s); try discriminate. destruct (expired _ _) in E; [|discriminate]. injection E as <-. now constructor.
  - destruct (d_phase s); try discriminate. destruct (passes _ _) in E; [|discriminate]. injection E as <-. now constructor.
  - destruct (_ && _) in E; [|discriminate]. injection E as <-. now constructor.
  - destruct (nth_error _ _); [|discriminate]. destruct (absent_time _ _ _ _); [|discriminate]. destruct (_ && _) in E; [|discriminate]. destruct (PS.step _ _ _ _); [|discriminate]. injection E as <-. now constructor.
  - destruct (_ && _) in E; [|discriminate]. destruct (earliest _); [|discriminate]. destruct (PS.wait_until_time _ _ _ _); [|discriminate]. destruct (expired _ _) in E; [|discriminate]. injection E as <-. now constructor.
  - destruct (d_waited s); [|discriminate]. destruct (earliest _); [|discriminate]. destruct (_ && _) in E; [|discriminate]. destruct (PS.step _ _ _ _); [|discriminate]. injection E as <-. now constructor.
Qed.
Lemma U_run l : forall s s', G s -> U s -> drun s l = Some s' -> U s'.
Proof.
  induction l as [|o l IH]; intros s s' GG UU E; cbn [Decentralized.drun] in E; [now injection E as <-|].
  destruct (dstep s o) as [s1|] eqn:E1; [|discriminate]. apply (IH s1); [now apply (G_step s o)|now apply (U_step s o)|exact E].
Qed.
Lemma U_init clock : U (dinit start sta clock ports0).
Proof. constructor; try (intros; contradiction). intros p. constructor. Qed.

(** ** A displaced message is flagged *)
Record F (n : Z) (s : dfed) : Prop := mkF {
  F_cur : tmicro (cur s) + n < UINT_MAX;
  F_queue : forall e, In e (d_queue s) -> tmicro (e_tag e) + n < UINT_MAX /\ forall p t, e_from e = Some (p, t) -> tag_le t (e_tag e);
  F_reading : forall m, In m (d_reading s) -> tmicro (m_tag m) + n < UINT_MAX;
  F_exec : forall x, In x (d_exec s) -> x_violation x = tag_ltb (x_intended x) (x_tag x) /\ tag_le (x_intended x) (x_tag x) }.

Lemma F_weaken n n' s : n' <= n -> F n s -> F n' s.
Proof. intros L [A B C D]. constructor; [lia| |intros m Hm; specialize (C m Hm); lia|exact D]. intros e He. destruct (B e He) as [B1 B2]. split; [lia|exact B2]. Qed.

Lemma bump_gt t : tag_ok t -> tmicro t < UINT_MAX -> tag_lt t (bump t).
Proof. intros Ht Hm. destruct (bump_cases t Ht) as [[_ ->]|[K _]]; [unfold tag_lt; cbn [ttime tmicro]; lia|lia]. Qed.
Lemma free_spec k l p : (forall e, In e l -> tag_ok (e_tag e) /\ tmicro (e_tag e) < UINT_MAX) -> forall t, 
  tag_le t (free k l p t) /\ (free k l p t = t \/ exists e, In e l /\ free k l p t = bump (e_tag e)).
Proof.
  intros H. induction k as [|k IH]; intros t; cbn [free]; [split; [apply tag_le_refl|now left]|].
  destruct (taken l p t) eqn:T; [|split; [apply tag_le_refl|now left]].
  unfold taken in T. apply existsb_exists in T. destruct T as (e & He & T). apply andb_true_iff in T. destruct T as [T _]. apply eqb_spec in T. destruct (H e He) as [H1 H2]. rewrite T in H1, H2.
  destruct (IH (bump t)) as [A B]. split; [apply tag_lt_le; apply (tag_lt_le_trans _ (bump t)); [now apply bump_gt|exact A]|]. right. destruct B as [B|B]; [|exact B]. exists e. split; [exact He|congruence].
Qed.
Lemma slot_spec n s p t : 0 <= n -> G s -> F (n + 1) s -> tag_ok t -> tmicro t + (n + 1) < UINT_MAX ->
  tmicro (fst (slot s p t)) + n < UINT_MAX /\ tag_le t (fst (slot s p t)).
Proof.
  intros Hn GG [F1 F2 _ _] Ht Hm. assert (Q : forall e, In e (d_queue s) -> tag_ok (e_tag e) /\ tmicro (e_tag e) < UINT_MAX).
  { intros e He. destruct (G_queue _ GG e He) as [[A _] _]. destruct (F2 e He) as [B _]. split; [exact A|lia]. }
  unfold slot. destruct (tag_ltb (cur s) t || negb (running s)) eqn:C; cbn [fst].
  - destruct (taken (d_queue s) p t); [|split; [lia|apply tag_le_refl]]. rewrite (bump_room t Ht) by lia. split; [lia|]. apply tag_lt_le. apply bump_gt; [exact Ht|lia].
  - apply orb_false_iff in C. destruct C as [C _]. apply ltb_false in C. pose proof (cur_ok _ GG) as Co.
    destruct (free_spec (S (length (d_queue s))) _ p Q (bump (cur s))) as [A B]. split.
    + destruct B as [->|(e & He & ->)]; [rewrite (bump_room _ Co) by lia; lia|]. destruct (Q e He) as [Q1 Q2]. destruct (F2 e He) as [Q3 _]. rewrite (bump_room _ Q1 Q2). lia.
    + apply (tag_le_trans _ _ _ C). apply tag_lt_le. apply (tag_lt_le_trans _ (bump (cur s))); [|exact A]. apply bump_gt; [exact Co|lia].
Qed.

Lemma popped_F n s c x : F n s -> In x (popped (d_queue s) c) -> x_violation x = tag_ltb (x_intended x) (x_tag x) /\ tag_le (x_intended x) (x_tag x).
Proof.
  intros [_ F2 _ _] Hx. destruct (popped_in _ _ _ Hx) as (e & t & He & Et & Ef & ->). cbn [x_violation x_intended x_tag]. split; [reflexivity|]. destruct (F2 e He) as [_ K]. rewrite <- Et. now apply (K (x_port x) t).
Qed.

Lemma now_cur s p q t : now index s p q t = true -> t = cur s.
Proof. unfold now. intros N. booly. assumption. Qed.
Lemma F_step n s o s' : 0 <= n -> G s -> F (n + 1) s -> op_room (n + 1) o -> dstep s o = Some s' -> F n s'.
Proof.
  intros Hn GG FF Ho E. pose proof FF as [F1 F2 F3 F4]. pose proof (F_weaken (n + 1) n s ltac:(lia) FF) as FW. pose proof FW as [W1 W2 W3 W4].
  destruct o; cbn [Decentralized.dstep] in E; cbv zeta in E; cbn [op_room] in Ho.
  - destruct (_ && _) in E; [|discriminate]. injection E as <-. now constructor.
  - destruct (_ && _) in E; [|discriminate]. injection E as <-. constructor; dproj; try assumption. intros e [<-|He]; [|now apply W2]. cbn [e_tag e_from]. split; [lia|discriminate].
  - destruct (nth_error _ _); [|discriminate]. destruct (_ && _) in E; [|discriminate]. injection E as <-. constructor; dproj; try assumption. intros m [<-|Hm]; [cbn [m_tag]; lia|now apply W3].
  - destruct (nth_error (PS.ports (d_ps s)) p) as [q|] eqn:Eq; [|discriminate]. destruct (find _ _) as [m|] eqn:Ef; [|discriminate]. destruct (find_port _ _ _ Ef) as [Hm Hp]. destruct (reading_tag _ _ GG Hm) as ((Mo & _) & _).
    assert (R : forall m0, In m0 (filter (fun m => negb (m_port m =? p)%nat) (d_reading s)) -> tmicro (m_tag m0) + n < UINT_MAX) by (intros m0 H0; apply W3; now apply filter_In in H0).
    destruct (now _ _ _ _ _) eqn:N.
    + destruct (PS.step true start (d_ps s) _) as [ps'|] eqn:Es; [|discriminate]. injection E as <-. destruct (pstep_chg _ (PS.OMessageNow p (m_tag m)) _ Logic.I Es) as (C1 & _). constructor; dproj; try assumption.
      * unfold cur. dproj. rewrite C1. exact W1.
      * intros x [<-|Hx]; [|now apply F4]. cbn [x_violation x_intended x_tag]. split; [reflexivity|]. rewrite (now_cur _ _ _ _ N). apply tag_le_refl.
    + destruct (PS.step true start (d_ps s) _) as [ps'|] eqn:Es; [|discriminate]. pose proof (slot_spec n s p (m_tag m) Hn GG FF Mo (F3 m Hm)) as Sl. destruct (slot _ _ _) as [t' b]. cbn [fst] in Sl. injection E as <-.
      destruct (pstep_chg _ (PS.OMessageLater p (m_tag m)) _ Logic.I Es) as (C1 & _). constructor; dproj; try assumption.
      * unfold cur. dproj. rewrite C1. exact W1.
      * intros e [<-|He]; [|now apply W2]. cbn [e_tag e_from]. split; [apply Sl|]. intros p0 t0 K. injection K as <- <-. apply Sl.
  - destruct (nth_error _ _); [|discriminate]. destruct (_ && _) in E; [|discriminate]. destruct (PS.step true start (d_ps s) _) as [ps'|] eqn:Es; [|discriminate]. injection E as <-. destruct (pstep_chg _ (PS.OAbsent p t) _ Logic.I Es) as (C1 & _).
    constructor; dproj; try assumption. unfold cur. dproj. rewrite C1. exact W1.
  - destruct (forallb _ _) in E; [|discriminate]. destruct (PS.step true start (d_ps s) _) as [ps'|] eqn:Es; [|discriminate]. injection E as <-. destruct (pstep_chg _ (PS.OGone f) _ Logic.I Es) as (C1 & _).
    constructor; dproj; try assumption. unfold cur. dproj. rewrite C1. exact W1.
  - destruct (d_phase s) eqn:Ph; try discriminate. destruct (expired _ _) in E; [|discriminate]. injection E as <-. constructor; dproj; try assumption. unfold cur. dproj. cbn [PS.cur tmicro].
    pose proof (g_cur _ _ (G_ps _ GG)) as Gc. rewrite Ph in Gc. unfold cur in W1. rewrite Gc in W1. exact W1.
  - destruct (d_phase s); try discriminate. destruct (passes _ _) in E; [|discriminate]. injection E as <-. constructor; dproj; try assumption.
    + intros e He. apply rest_in in He. now apply W2.
    + intros x Hx. apply in_app_or in Hx. destruct Hx as [Hx|Hx]; [now apply (popped_F n s st0)|now apply F4].
  - destruct (_ && _) in E; [|discriminate]. injection E as <-. now constructor.
  - destruct (nth_error _ _); [|discriminate]. destruct (absent_time _ _ _ _); [|discriminate]. destruct (_ && _) in E; [|discriminate]. destruct (PS.step true start (d_ps s) _) as [ps'|] eqn:Es; [|discriminate]. injection E as <-.
    destruct (pstep_chg _ (PS.OAssumeAbsent p) _ Logic.I Es) as (C1 & _). constructor; dproj; try assumption. unfold cur. dproj. rewrite C1. exact W1.
  - destruct (_ && _) in E; [|discriminate]. destruct (earliest _); [|discriminate]. destruct (PS.wait_until_time _ _ _ _); [|discriminate]. destruct (expired _ _) in E; [|discriminate]. injection E as <-. now constructor.
  - destruct (d_waited s); [|discriminate]. destruct (earliest _) as [n'|] eqn:Ee; [|discriminate]. destruct (_ && _) in E; [|discriminate]. cbn [PS.step] in E. injection E as <-.
    destruct (pop_fold (popped (d_queue s) n') (PS.update_max_level true start (PS.mkFed (PS.ports (d_ps s)) n' (PS.last_grant (d_ps s)) (PS.provisional (d_ps s)) (PS.mlaa (d_ps s))) (PS.last_grant (d_ps s)) (PS.provisional (d_ps s)))) as (A1 & _).
    constructor; dproj; try assumption.
    + unfold cur. dproj. cbn [PS.update_max_level PS.set_mlaa PS.cur]. rewrite A1. cbn [PS.update_max_level PS.set_mlaa PS.cur]. destruct (earliest_in _ _ Ee) as (e & He & <-). now destruct (W2 e He).
    + intros e He. apply rest_in in He. now apply W2.
    + intros x Hx. apply in_app_or in Hx. destruct Hx as [Hx|Hx]; [now apply (popped_F n s n')|now apply F4].
Qed.
Lemma op_room_weaken a b o : b <= a -> op_room a o -> op_room b o.
Proof. intros L. destruct o; cbn [op_room]; try tauto; try lia. Qed.
Lemma F_run l : forall s s', G s -> F (Z.of_nat (length l)) s -> Forall (op_room (Z.of_nat (length l))) l -> drun s l = Some s' -> F 0 s'.
Proof.
  induction l as [|o l IH]; intros s s' GG FF Ho E; cbn [Decentralized.drun] in E; [now injection E as <-|].
  destruct (dstep s o) as [s1|] eqn:E1; [|discriminate]. cbn [length] in *. rewrite Nat2Z.inj_succ in *. inversion Ho as [|? ? Ho1 Ho2]; subst.
  apply (IH s1); [now apply (G_step s o)| | |exact E].
  - apply (F_step _ s o); [lia|exact GG|exact FF|exact Ho1|exact E1].
  - eapply Forall_impl; [|exact Ho2]. intros x. apply op_room_weaken. lia.
Qed.
Lemma F_init clock n : n < UINT_MAX -> F n (dinit start sta clock ports0).
Proof. intros Hn. constructor; try (intros; contradiction). cbn. lia. Qed.
(** ** Progress *)
Record V (n : Z) (s : dfed) : Prop := mkV {
  V_known : forall j q, nth_error (PS.ports (d_ps s)) j = Some q -> tag_le (PS.known q) (d_ann s j) \/ tmicro (PS.known q) + n < UINT_MAX \/ ttime (PS.known q) = FOREVER;
  V_seen : d_phase s = Running -> forall j q, In j (d_seen s) -> nth_error (PS.ports (d_ps s)) j = Some q -> tag_le (cur s) (PS.known q);
  V_queue : forall e j t q, In e (d_queue s) -> e_from e = Some (j, t) -> nth_error (PS.ports (d_ps s)) j = Some q -> tag_le t (PS.known q);
  V_from : forall e j t, In e (d_queue s) -> e_from e = Some (j, t) -> tag_le st0 t /\ ttime t < FOREVER }.

Definition le' (a b : tag) : Prop := tag_le a b \/ ttime b = FOREVER.
Lemma le'_trans x a b : ttime x < FOREVER -> tag_le x a -> le' a b -> tag_le x b.
Proof. intros H A [B|B]; [now apply (tag_le_trans _ a)|]. revert H B. unfold tag_le. lia. Qed.
Definition grows (ps ps' : PS.fed) : Prop := forall j q', nth_error (PS.ports ps') j = Some q' -> exists q, nth_error (PS.ports ps) j = Some q /\ le' (PS.known q) (PS.known q').

Lemma V_update n s t i ps' ann' : 0 <= n -> G s -> V (n + 1) s -> PS.update_port true start (d_ps s) t i = Some ps' ->
  let x := PP.later t (cur s) in
  (forall q, nth_error (PS.ports (d_ps s)) i = Some q -> x = PS.known q -> tmicro x + (n + 1) < UINT_MAX \/ ttime x = FOREVER) ->
  (tag_le x (ann' i) \/ tmicro x + (n + 1) < UINT_MAX \/ ttime x = FOREVER) -> tag_ok x ->
  (forall j, tag_le (d_ann s j) (ann' j)) ->
  (forall j q, nth_error (PS.ports ps') j = Some q -> tag_le (PS.known q) (ann' j) \/ tmicro (PS.known q) + n < UINT_MAX \/ ttime (PS.known q) = FOREVER) /\
  grows (d_ps s) ps' /\
  (forall q, nth_error (PS.ports ps') i = Some q -> le' x (PS.known q)).
Proof.
  intros Hn GG VV E x A B Xo An.
  assert (K : forall j q', nth_error (PS.ports ps') j = Some q' -> exists q, nth_error (PS.ports (d_ps s)) j = Some q /\ PS.known q' = if (i =? j)%nat then PP.absorb x (PS.known q) else PS.known q).
  { intros j q' E'. destruct (update_chg _ _ _ _ E) as (_ & Es & _). symmetry in Es. destruct (strip_nth _ _ _ _ Es E') as (q & Eq & _). destruct (known_update _ _ _ _ _ _ E Eq) as (q2 & E2 & _ & K). assert (q2 = q') by congruence. subst q2. exists q. auto. }
  assert (O : forall j q, nth_error (PS.ports (d_ps s)) j = Some q -> tag_le (PS.known q) (ann' j) \/ tmicro (PS.known q) + n < UINT_MAX \/ ttime (PS.known q) = FOREVER).
  { intros j q Eq. destruct (V_known _ _ VV j q Eq) as [K1|[K1|K1]]; [left; now apply (tag_le_trans _ (d_ann s j))|right; left; lia|auto]. }
  assert (Bm : forall q, nth_error (PS.ports (d_ps s)) i = Some q -> x = PS.known q -> le' x (bump x) /\ (tmicro (bump x) + n < UINT_MAX \/ ttime (bump x) = FOREVER)).
  { intros q Eq Ex. destruct (A q Eq Ex) as [M|M]; [|split; right; exact M]. split; [left; apply tag_lt_le, bump_gt; [exact Xo|lia]|]. left. rewrite (bump_room x Xo) by lia. lia. }
  split; [|split].
  - intros j q' E'. destruct (K j q' E') as (q & Eq & ->). destruct (Nat.eqb_spec i j) as [Ej|_]; [|now apply O]. subst j.
    destruct (absorb_cases x (PS.known q)) as [[_ ->]|[[Ex ->]|[_ ->]]]; [now apply O|destruct (Bm q Eq Ex) as [_ [M|M]]; auto|]. destruct B as [B|[B|B]]; [auto|right; left; lia|auto].
  - intros j q' E'. destruct (K j q' E') as (q & Eq & ->). exists q. split; [exact Eq|]. destruct (Nat.eqb_spec i j) as [Ej|_]; [|left; apply tag_le_refl]. subst j.
    destruct (absorb_cases x (PS.known q)) as [[_ ->]|[[Ex ->]|[L ->]]]; [left; apply tag_le_refl|rewrite <- Ex; now destruct (Bm q Eq Ex)|left; now apply tag_lt_le].
  - intros q' E'. destruct (K i q' E') as (q & Eq & ->). rewrite Nat.eqb_refl.
    destruct (absorb_cases x (PS.known q)) as [[L ->]|[[Ex ->]|[L ->]]]; [left; now apply tag_lt_le|now destruct (Bm q Eq Ex)|left; apply tag_le_refl].
Qed.

Lemma V_grow n s ps' : G s -> V n s -> grows (d_ps s) ps' -> PS.cur ps' = cur s ->
  (d_phase s = Running -> forall j q, In j (d_seen s) -> nth_error (PS.ports ps') j = Some q -> tag_le (PS.cur ps') (PS.known q)) /\
  (forall e j t q, In e (d_queue s) -> e_from e = Some (j, t) -> nth_error (PS.ports ps') j = Some q -> tag_le t (PS.known q)).
Proof.
  intros GG VV Gr Ec. split.
  - intros Ph j q' Hj E'. destruct (Gr j q' E') as (q & Eq & L). rewrite Ec. apply (le'_trans _ (PS.known q)); [|now apply (V_seen _ _ VV Ph j)|exact L].
    pose proof (g_ok _ _ (G_ps _ GG)) as Go. rewrite Ph in Go. apply Go.
  - intros e j t q' He Ef E'. destruct (Gr j q' E') as (q & Eq & L). apply (le'_trans _ (PS.known q)); [now apply (V_from _ _ VV e j)|now apply (V_queue _ _ VV e j)|exact L].
Qed.
Lemma V_weaken a b s : b <= a -> V a s -> V b s.
Proof. intros L [A B C D]. constructor; try assumption. intros j q Eq. destruct (A j q Eq) as [K|[K|K]]; [auto|right; left; lia|auto]. Qed.

(** What is popped as tardy is known. *)
Lemma pop_known_cur ps y : PS.cur (pop_known ps y) = PS.cur ps.
Proof. unfold pop_known. destruct (x_violation y); [|reflexivity]. destruct (nth_error (PS.ports ps) (x_port y)); [|reflexivity]. destruct (tag_ltb _ _); reflexivity. Qed.
Lemma pop_known_violation x : forall ps y q', In y x -> x_violation y = true -> nth_error (PS.ports (fold_left pop_known x ps)) (x_port y) = Some q' -> tag_le (PS.cur ps) (PS.known q').
Proof.
  induction x as [|z x IH]; intros ps y q' Hy Vy E'; [contradiction|]. cbn [fold_left] in E'. destruct Hy as [->|Hy].
  - destruct (pop_fold x (pop_known ps y)) as (A1 & A2 & A3).
    assert (exists q1, nth_error (PS.ports (pop_known ps y)) (x_port y) = Some q1) as (q1 & E1).
    { symmetry in A2. destruct (strip_nth _ _ _ _ A2 E') as (q1 & E1 & _). now exists q1. }
    pose proof (pop_known_cur ps y) as Ec.
    assert (K1 : tag_le (PS.cur ps) (PS.known q1)).
    { unfold pop_known in E1. rewrite Vy in E1. destruct (nth_error (PS.ports ps) (x_port y)) as [q0|] eqn:E0; [|congruence]. destruct (tag_ltb (PS.known q0) (PS.cur ps)) eqn:L.
      - cbn [PS.set_ports PS.ports] in E1. rewrite PP.nth_replace, Nat.eqb_refl, E0 in E1. injection E1 as <-. apply tag_le_refl.
      - apply ltb_false in L. congruence. }
    destruct (A3 _ q1 E1) as (q2 & E2 & _ & K2). assert (q2 = q') by congruence. subst q2. destruct K2 as [->|(-> & _)]; [exact K1|rewrite Ec; apply tag_le_refl].
  - pose proof (pop_known_cur ps z) as Ec.
    rewrite <- Ec. now apply (IH (pop_known ps z) y q').
Qed.

Lemma later_ok s t : G s -> tag_ok t -> tag_ok (PP.later t (cur s)).
Proof. intros GG Ht. apply PP.later_ok; [exact Ht|now apply cur_ok]. Qed.

Lemma V_step n s o s' : 0 <= n -> G s -> U s -> F (n + 1) s -> V (n + 1) s -> op_room (n + 1) o -> dstep s o = Some s' -> V n s'.
Proof.
  intros Hn GG UU FF VV Ho E. pose proof (V_weaken (n + 1) n s ltac:(lia) VV) as VW. pose proof VW as [V1 V2 V3 V4]. pose proof FF as [F1 F2 F3 F4]. pose proof (cur_ok _ GG) as Co.
  pose proof (g_strip _ _ (G_ps _ GG)) as Gs.
  destruct o; cbn [Decentralized.dstep] in E; cbv zeta in E; cbn [op_room] in Ho.
  - destruct (_ && _) in E; [|discriminate]. injection E as <-. now constructor.
  - destruct (_ && _) in E; [|discriminate]. injection E as <-. constructor; dproj; try assumption.
    + intros e j t0 q [<-|He]; [discriminate|now apply V3].
    + intros e j t0 [<-|He]; [discriminate|now apply (V4 e j)].
  - destruct (nth_error _ _); [|discriminate]. destruct (_ && _) in E; [|discriminate]. injection E as <-. now constructor.
  - (* message *)
    destruct (nth_error (PS.ports (d_ps s)) p) as [q|] eqn:Eq; [|discriminate]. destruct (find _ _) as [m|] eqn:Ef; [|discriminate]. destruct (find_port _ _ _ Ef) as [Hm Hp]. destruct (reading_tag _ _ GG Hm) as ((Mo & Ms) & Mf & Mm).
    pose proof (U_reading _ UU m Hm) as Ua. rewrite Hp in Ua. pose proof (F3 m Hm) as Fm.
    assert (An : forall j, tag_le (d_ann s j) (upd (d_ann s) p (m_tag m) j)).
    { intros j. destruct (Nat.eq_dec j p) as [->|nj]; [rewrite upd_same; now apply tag_lt_le|rewrite upd_other by exact nj; apply tag_le_refl]. }
    destruct (now _ _ _ _ _) eqn:N.
    + destruct (PS.step true start (d_ps s) (PS.OMessageNow p (m_tag m))) as [ps'|] eqn:Es; [|discriminate]. injection E as <-. cbn [PS.step] in Es. destruct (update_chg _ _ _ _ Es) as (Ec & _ & _).
      pose proof (now_cur _ _ _ _ N) as Et. assert (X : PP.later (m_tag m) (cur s) = m_tag m) by (destruct (later_cases (m_tag m) (cur s)) as [[-> _]|[-> _]]; congruence).
      destruct (V_update n s (m_tag m) p ps' (upd (d_ann s) p (m_tag m)) Hn GG VV Es) as (A & B & C); rewrite ?X in *; auto.
      destruct (V_grow n s ps' GG VW B Ec) as (D1 & D2).
      constructor; dproj; try assumption. intros Ph j q' [<-|Hj] E'; [|now apply (D1 Ph j)]. unfold cur. dproj. rewrite Ec. fold (cur s). apply (le'_trans _ (m_tag m)); [rewrite <- Et; exact Mf|rewrite <- Et; apply tag_le_refl|now apply C].
    + destruct (PS.step true start (d_ps s) (PS.OMessageLater p (m_tag m))) as [ps'|] eqn:Es; [|discriminate]. destruct (slot _ _ _) as [t' b]. injection E as <-. cbn [PS.step] in Es. rewrite Eq in Es. destruct (update_chg _ _ _ _ Es) as (Ec & _ & _).
      set (y := PS.actual_tag true (d_ps s) (m_tag m) q) in *.
      (* the tag used for the update *)
      assert (Y : PP.later y (cur s) = y /\ tag_ok y /\ tag_le (m_tag m) y /\
        (y = m_tag m \/ (tag_le (m_tag m) (cur s) /\ (tmicro y + n < UINT_MAX \/ ttime y = FOREVER) /\ y <> PS.known q) \/ (tag_le (m_tag m) (cur s) /\ y = FOREVER_TAG))).
      { assert (Yf : fine y) by (apply (actual_fine (d_phase s) (d_ps s) (m_tag m) p q (G_ps _ GG)); [now split|exact Eq]).
        unfold y, PS.actual_tag in *. cbn [andb] in *. fold (cur s) in *. destruct (tag_compare (m_tag m) (cur s) <=? 0) eqn:L.
        - apply RtiProofs.cmp_le0 in L. change (mkTag (ttime (cur s)) ((tmicro (cur s) + 1) mod two32)) with (bump (cur s)) in *.
          assert (Lb : tag_lt (cur s) (bump (cur s))) by (apply bump_gt; [exact Co|lia]).
          destruct (tag_compare (bump (cur s)) (PS.known q) <=? 0) eqn:L2.
          + apply RtiProofs.cmp_le0 in L2. change (mkTag (ttime (PS.known q)) ((tmicro (PS.known q) + 1) mod two32)) with (bump (PS.known q)) in *.
            destruct (g_known _ _ (G_ps _ GG) p q Eq) as [Ko _].
            assert (Lk : tag_lt (cur s) (PS.known q)) by now apply (tag_lt_le_trans _ (bump (cur s))).
            destruct (V_known _ _ VV p q Eq) as [K|[K|K]].
            * exfalso. apply (tag_lt_irrefl (m_tag m)). apply (tag_le_lt_trans _ (cur s)); [exact L|]. apply (tag_lt_trans _ (PS.known q)); [exact Lk|]. now apply (tag_le_lt_trans _ (d_ann s p)).
            * assert (Lb2 : tag_lt (PS.known q) (bump (PS.known q))) by (apply bump_gt; [exact Ko|lia]).
              assert (Lc : tag_lt (cur s) (bump (PS.known q))) by now apply (tag_lt_trans _ (PS.known q)).
              destruct (later_cases (bump (PS.known q)) (cur s)) as [[-> _]|[_ Bad]]; [|exfalso; apply (tag_lt_irrefl (cur s)); now apply (tag_lt_trans _ (bump (PS.known q)))].
              split; [reflexivity|]. split; [apply Yf|]. split; [apply tag_lt_le; now apply (tag_le_lt_trans _ (cur s))|]. right. left. split; [exact L|]. split; [left; rewrite (bump_room _ Ko) by lia; lia|]. intros K2. rewrite K2 in Lb2. now apply tag_lt_irrefl in Lb2.
            * assert (Lc : tag_lt (cur s) (bump (PS.known q))). { pose proof (g_ok _ _ (G_ps _ GG)) as (_ & _ & Go). unfold tag_lt. left. rewrite bump_time, K. unfold cur. destruct (d_phase s) eqn:Ph; cbn [eff] in Go; try exact Go.
                pose proof (g_cur _ _ (G_ps _ GG)) as Gc. rewrite Ph in Gc. rewrite Gc. cbn [ttime]. destruct start_facts as (B1 & B2 & B3). lia. }
              destruct (later_cases (bump (PS.known q)) (cur s)) as [[-> _]|[_ Bad]]; [|exfalso; apply (tag_lt_irrefl (cur s)); now apply (tag_lt_trans _ (bump (PS.known q)))].
              split; [reflexivity|]. split; [apply Yf|]. split; [apply tag_lt_le; now apply (tag_le_lt_trans _ (cur s))|]. right. left. split; [exact L|]. split; [right; exact K|].
              intros K2. destruct (bump_cases _ Ko) as [[_ Kb]|[Km Kb]]; rewrite Kb in K2; apply (f_equal tmicro) in K2; cbn [tmicro] in K2; tag_consts; lia.
          + destruct (later_cases (bump (cur s)) (cur s)) as [[-> _]|[_ Bad]]; [|exfalso; apply (tag_lt_irrefl (cur s)); now apply (tag_lt_trans _ (bump (cur s)))].
            split; [reflexivity|]. split; [apply Yf|]. split; [apply tag_lt_le; now apply (tag_le_lt_trans _ (cur s))|]. right. left. split; [exact L|]. split; [left; rewrite (bump_room _ Co) by lia; lia|].
            intros K2. apply Z.leb_gt in L2. rewrite <- K2 in L2. assert (K3 : tag_compare (bump (cur s)) (bump (cur s)) = 0) by now apply tag_compare_eq. lia.
        - assert (L2 : tag_lt (cur s) (m_tag m)) by (apply tag_not_le; intros K; apply RtiProofs.cmp_le0 in K; congruence).
          destruct (later_cases (m_tag m) (cur s)) as [[-> _]|[_ Bad]]; [|exfalso; apply (tag_lt_irrefl (cur s)); now apply (tag_lt_trans _ (m_tag m))].
          split; [reflexivity|]. split; [exact Mo|]. split; [apply tag_le_refl|now left]. }
      destruct Y as (Y1 & Y2 & Y3 & Y4).
      assert (VU : (forall j q, nth_error (PS.ports ps') j = Some q -> tag_le (PS.known q) (upd (d_ann s) p (m_tag m) j) \/ tmicro (PS.known q) + n < UINT_MAX \/ ttime (PS.known q) = FOREVER) /\ grows (d_ps s) ps' /\ (forall q, nth_error (PS.ports ps') p = Some q -> le' y (PS.known q))).
      { assert (K : forall j q', nth_error (PS.ports ps') j = Some q' -> exists q0, nth_error (PS.ports (d_ps s)) j = Some q0 /\ PS.known q' = if (p =? j)%nat then PP.absorb y (PS.known q0) else PS.known q0).
        { intros j q' E'. destruct (update_chg _ _ _ _ Es) as (_ & Est & _). symmetry in Est. destruct (strip_nth _ _ _ _ Est E') as (q0 & E0 & _). destruct (known_update _ _ _ _ _ _ Es E0) as (q2 & E2 & _ & K). fold (cur s) in K. rewrite Y1 in K. assert (q2 = q') by congruence. subst q2. exists q0. auto. }
        assert (Yn : y = PS.known q -> y = m_tag m /\ (tmicro y + (n + 1) < UINT_MAX)).
        { intros Ky. destruct Y4 as [Y4|[(_ & _ & Y4)|(L & Y4)]]; [|contradiction|].
          - split; [exact Y4|rewrite Y4; exact Fm].
          - exfalso. unfold y, PS.actual_tag in Y4. cbn [andb] in Y4. fold (cur s) in Y4. apply RtiProofs.cmp_le0 in L. rewrite L in Y4. 
            apply (f_equal tmicro) in Y4. destruct (tag_compare _ (PS.known q) <=? 0) eqn:L2 in Y4; cbn [tmicro] in Y4; fold y in Ky.
            + rewrite Ky in *. unfold y, PS.actual_tag in Ky. cbn [andb] in Ky. fold (cur s) in Ky. rewrite L, L2 in Ky. destruct (g_known _ _ (G_ps _ GG) p q Eq) as [Ko _]. change (bump (PS.known q) = PS.known q) in Ky.
              destruct (bump_cases _ Ko) as [[_ Kb]|[Km Kb]]; rewrite Kb in Ky; apply (f_equal tmicro) in Ky; cbn [tmicro] in Ky; tag_consts; lia.
            + change ((tmicro (cur s) + 1) mod two32) with (tmicro (bump (cur s))) in Y4. rewrite (bump_room _ Co) in Y4 by lia. tag_consts; lia. }
        assert (Yk : tag_le y (upd (d_ann s) p (m_tag m) p) \/ tmicro y + n < UINT_MAX \/ ttime y = FOREVER).
        { rewrite upd_same. destruct Y4 as [->|[(_ & Y4 & _)|(_ & ->)]]; [left; apply tag_le_refl|auto|auto]. }
        assert (Ob : forall j q0, nth_error (PS.ports (d_ps s)) j = Some q0 -> tag_le (PS.known q0) (upd (d_ann s) p (m_tag m) j) \/ tmicro (PS.known q0) + n < UINT_MAX \/ ttime (PS.known q0) = FOREVER).
        { intros j q0 E0. destruct (V1 j q0 E0) as [K1|[K1|K1]]; [left; now apply (tag_le_trans _ (d_ann s j))|auto|auto]. }
        split; [|split].
        - intros j q' E'. destruct (K j q' E') as (q0 & E0 & ->). destruct (Nat.eqb_spec p j) as [Ej|_]; [|now apply Ob]. subst j. assert (q0 = q) by congruence. subst q0.
          destruct (absorb_cases y (PS.known q)) as [[_ ->]|[[Ex ->]|[_ ->]]]; [now apply Ob| |exact Yk]. destruct (Yn Ex) as [_ M]. right. left. rewrite (bump_room y Y2) by lia. lia.
        - intros j q' E'. destruct (K j q' E') as (q0 & E0 & ->). exists q0. split; [exact E0|]. destruct (Nat.eqb_spec p j) as [Ej|_]; [|left; apply tag_le_refl]. subst j. assert (q0 = q) by congruence. subst q0.
          destruct (absorb_cases y (PS.known q)) as [[_ ->]|[[Ex ->]|[L ->]]]; [left; apply tag_le_refl| |left; now apply tag_lt_le]. rewrite <- Ex. destruct (Yn Ex) as [_ M]. left. apply tag_lt_le, bump_gt; [exact Y2|lia].
        - intros q' E'. destruct (K p q' E') as (q0 & E0 & ->). rewrite Nat.eqb_refl. assert (q0 = q) by congruence. subst q0.
          destruct (absorb_cases y (PS.known q)) as [[L ->]|[[Ex ->]|[L ->]]]; [left; now apply tag_lt_le| |left; apply tag_le_refl]. destruct (Yn Ex) as [_ M]. left. apply tag_lt_le, bump_gt; [exact Y2|lia]. }
      destruct VU as (A & B & C). destruct (V_grow n s ps' GG VW B Ec) as (D1 & D2).
      constructor; dproj; try assumption.
      * intros e j t0 q' [<-|He] Ht E'; [|now apply (D2 e j)]. cbn [e_from] in Ht. injection Ht as <- <-. apply (le'_trans _ y); [exact Mf|exact Y3|now apply C].
      * intros e j t0 [<-|He] Ht; [|now apply (V4 e j)]. cbn [e_from] in Ht. injection Ht as <- <-. now split.
  - (* absent *)
    destruct (nth_error (PS.ports (d_ps s)) p) as [q|] eqn:Eq; [|discriminate]. destruct (_ && _) eqn:C in E; [|discriminate]. destruct (PS.step true start (d_ps s) (PS.OAbsent p t)) as [ps'|] eqn:Es; [|discriminate]. injection E as <-. cbn [PS.step] in Es.
    apply andb_true_iff in C. destruct C as [C Po]. apply andb_true_iff in C. destruct C as [C Ua]. apply ltb_spec in Ua. destruct (possible_fine q true t (port_delay _ _ _ Gs Eq) Po) as [[Ft _] Ftt]. destruct (update_chg _ _ _ _ Es) as (Ec & _ & _).
    assert (An : forall j, tag_le (d_ann s j) (upd (d_ann s) p t j)).
    { intros j. destruct (Nat.eq_dec j p) as [->|nj]; [rewrite upd_same; now apply tag_lt_le|rewrite upd_other by exact nj; apply tag_le_refl]. }
    destruct (V_update n s t p ps' (upd (d_ann s) p t) Hn GG VV Es) as (A & B & _).
    + intros q0 E0 Ex. assert (q0 = q) by congruence. subst q0. destruct (later_cases t (cur s)) as [[K _]|[K _]]; rewrite K in *; [|left; exact F1]. destruct (V_known _ _ VV p q Eq) as [K1|[K1|K1]]; rewrite <- Ex in K1; [|auto|auto].
      exfalso. apply (tag_lt_irrefl t). now apply (tag_le_lt_trans _ (d_ann s p)).
    + rewrite upd_same. destruct (later_cases t (cur s)) as [[-> _]|[-> _]]; [left; apply tag_le_refl|auto].
    + now apply later_ok.
    + exact An.
    + destruct (V_grow n s ps' GG VW B Ec) as (D1 & D2). constructor; dproj; try assumption.
  - (* gone *)
    destruct (forallb _ _) in E; [|discriminate]. destruct (PS.step true start (d_ps s) (PS.OGone f)) as [ps'|] eqn:Es; [|discriminate]. injection E as <-. destruct (pstep_chg _ (PS.OGone f) _ Logic.I Es) as (Ec & Est & _). cbn [PS.step] in Es.
    assert (Lf : PP.later FOREVER_TAG (PS.cur (d_ps s)) = FOREVER_TAG).
    { destruct (later_cases FOREVER_TAG (PS.cur (d_ps s))) as [[-> _]|[_ L]]; [reflexivity|]. exfalso. pose proof (tag_forever_greatest _ Co) as K. apply (tag_lt_irrefl FOREVER_TAG). now apply (tag_lt_le_trans _ (cur s)). }
    assert (K : forall j q', nth_error (PS.ports ps') j = Some q' -> exists q, nth_error (PS.ports (d_ps s)) j = Some q /\ (((PS.source q =? f)%nat = true /\ (PS.known q' = PS.known q \/ ttime (PS.known q') = FOREVER)) \/ ((PS.source q =? f)%nat = false /\ PS.known q' = PS.known q))).
    { intros j q' E'. symmetry in Est. destruct (strip_nth _ _ _ _ Est E') as (q & Eq & _). destruct (known_gone _ _ _ _ _ Es Eq) as (q2 & E2 & _ & K). assert (q2 = q') by congruence. subst q2. rewrite Lf in K. exists q. split; [exact Eq|].
      destruct (PS.source q =? f)%nat; [left|right; now split]. split; [reflexivity|]. destruct (absorb_cases FOREVER_TAG (PS.known q)) as [[_ A]|[[_ A]|[_ A]]]; rewrite A in K; [now left|right; now rewrite K|right; now rewrite K]. }
    assert (Gr : grows (d_ps s) ps').
    { intros j q' E'. destruct (K j q' E') as (q & Eq & [[_ [K1|K1]]|[_ K1]]); exists q; (split; [exact Eq|]); [left; rewrite K1; apply tag_le_refl|now right|left; rewrite K1; apply tag_le_refl]. }
    destruct (V_grow n s ps' GG VW Gr Ec) as (D1 & D2). constructor; dproj; try assumption.
    intros j q' E'. destruct (K j q' E') as (q & Eq & [[K0 K1]|[K0 K1]]); rewrite Eq, K0.
    + destruct K1 as [K1|K1]; [|auto]. left. rewrite K1. apply tag_forever_greatest. now destruct (g_known _ _ (G_ps _ GG) j q Eq).
    + rewrite K1. now apply V1.
  - destruct (d_phase s) eqn:Ph; try discriminate. destruct (expired _ _) in E; [|discriminate]. injection E as <-. constructor; dproj; try assumption. discriminate.
  - (* started *)
    destruct (d_phase s) eqn:Ph; try discriminate. destruct (passes _ _) in E; [|discriminate]. injection E as <-. constructor; dproj; try assumption.
    + intros _ j q Hj Eq. apply in_map_iff in Hj. destruct Hj as (x & <- & Hx). destruct (popped_in _ _ _ Hx) as (e & t & He & Et & Ef & X). pose proof (V3 e _ t q He Ef Eq) as K.
      destruct (F2 e He) as [_ L]. specialize (L _ _ Ef). unfold cur. dproj. fold (cur s). pose proof (g_cur _ _ (G_ps _ GG)) as Gc. rewrite Ph in Gc. fold (cur s) in Gc. rewrite Gc.
      pose proof (popped_F (n + 1) s st0 x FF Hx) as [Px _]. rewrite X in Px. cbn [x_violation x_intended x_tag] in Px.
      destruct (tag_le_total st0 (PS.known q)) as [Lk|Lk]; [exact Lk|]. destruct (g_known _ _ (G_ps _ GG) _ q Eq) as [_ [Kn|Kn]]; [|exact Kn]. exfalso.
      (* the tag of the message is at or after the start *)
      rewrite Kn in K. destruct (V4 e _ t He Ef) as [Bad _]. destruct start_facts as (B1 & _). revert K Bad. tag_consts. lia.
    + intros e j t q He. apply rest_in in He. now apply V3.
    + intros e j t He. apply rest_in in He. now apply (V4 e j).
  - destruct (_ && _) in E; [|discriminate]. injection E as <-. now constructor.
  - (* assume *)
    destruct (nth_error (PS.ports (d_ps s)) p) as [q|] eqn:Eq; [|discriminate]. destruct (absent_time _ _ _ _); [|discriminate]. destruct (_ && _) in E; [|discriminate]. destruct (PS.step true start (d_ps s) (PS.OAssumeAbsent p)) as [ps'|] eqn:Es; [|discriminate]. injection E as <-.
    cbn [PS.step] in Es. destruct (update_chg _ _ _ _ Es) as (Ec & _ & _). fold (cur s) in Es.
    assert (X : PP.later (cur s) (cur s) = cur s) by (destruct (later_cases (cur s) (cur s)) as [[-> _]|[-> _]]; reflexivity).
    destruct (V_update n s (cur s) p ps' (d_ann s) Hn GG VV Es) as (A & B & C); rewrite ?X in *; auto; [intros j; apply tag_le_refl|].
    destruct (V_grow n s ps' GG VW B Ec) as (D1 & D2). constructor; dproj; try assumption.
    intros Ph j q' [<-|Hj] E'; [|now apply (D1 Ph j)]. unfold cur. dproj. rewrite Ec. fold (cur s). apply (le'_trans _ (cur s)); [|apply tag_le_refl|now apply C].
    pose proof (g_ok _ _ (G_ps _ GG)) as Go. rewrite Ph in Go. apply Go.
  - destruct (_ && _) in E; [|discriminate]. destruct (earliest _); [|discriminate]. destruct (PS.wait_until_time _ _ _ _); [|discriminate]. destruct (expired _ _) in E; [|discriminate]. injection E as <-. now constructor.
  - (* advance *)
    destruct (d_waited s) eqn:Ew; [|discriminate]. destruct (earliest _) as [n'|] eqn:Ee; [|discriminate]. destruct (_ && _) in E; [|discriminate]. cbn [PS.step] in E. injection E as <-.
    set (ps1 := PS.update_max_level true start (PS.mkFed (PS.ports (d_ps s)) n' (PS.last_grant (d_ps s)) (PS.provisional (d_ps s)) (PS.mlaa (d_ps s))) (PS.last_grant (d_ps s)) (PS.provisional (d_ps s))).
    destruct (pop_fold (popped (d_queue s) n') ps1) as (A1 & A2 & A3). set (ps2 := fold_left pop_known (popped (d_queue s) n') ps1) in *.
    change (PS.cur ps1) with n' in A1, A3. change (PS.ports ps1) with (PS.ports (d_ps s)) in A2, A3.
    destruct (earliest_in _ _ Ee) as (e0 & He0 & Et0). destruct (F2 e0 He0) as [Fn _]. rewrite Et0 in Fn. destruct (G_queue _ GG e0 He0) as [_ Fnt]. rewrite Et0 in Fnt.
    assert (K : forall j q', nth_error (PS.ports ps2) j = Some q' -> exists q, nth_error (PS.ports (d_ps s)) j = Some q /\ (PS.known q' = PS.known q \/ (PS.known q' = n' /\ tag_lt (PS.known q) n'))).
    { intros j q' E'. symmetry in A2. destruct (strip_nth _ _ _ _ A2 E') as (q & Eq & _). destruct (A3 j q Eq) as (q2 & E2 & _ & K). assert (q2 = q') by congruence. subst q2. exists q. split; [exact Eq|]. destruct K as [K|(K & L & _)]; auto. }
    constructor; dproj; change (PS.ports (PS.update_max_level true start ps2 (PS.last_grant ps2) (PS.provisional ps2))) with (PS.ports ps2).
    + intros j q' E'. destruct (K j q' E') as (q & Eq & [->|[-> L]]); [now apply V1|right; left; lia].
    + intros _ j q' Hj E'. unfold cur. dproj. change (PS.cur (PS.update_max_level true start ps2 (PS.last_grant ps2) (PS.provisional ps2))) with (PS.cur ps2). rewrite A1.
      apply in_map_iff in Hj. destruct Hj as (x & <- & Hx). destruct (x_violation x) eqn:Vx.
      * pose proof (pop_known_violation (popped (d_queue s) n') ps1 x q' Hx Vx E') as Q. exact Q.
      * destruct (popped_F (n + 1) s n' x FF Hx) as [Px Pl]. rewrite Vx in Px. symmetry in Px. apply ltb_false in Px. destruct (popped_in _ _ _ Hx) as (e & t1 & He & Et & Ef & X). rewrite X in Px. cbn [x_intended x_tag] in Px.
        destruct (K _ q' E') as (q & Eq & [Kq|[Kq L]]); rewrite Kq; [|apply tag_le_refl]. apply (tag_le_trans _ t1); [exact Px|now apply (V3 e (x_port x))].
    + intros e j t1 q' He Ht E'. apply rest_in in He. destruct He as [He _]. destruct (K j q' E') as (q & Eq & [->|[-> L]]); [now apply (V3 e j)|]. apply tag_lt_le. apply (tag_le_lt_trans _ (PS.known q)); [now apply (V3 e j)|exact L].
    + intros e j t1 He Ht. apply rest_in in He. now apply (V4 e j).
Qed.
Lemma V_run l : forall s s', G s -> U s -> F (Z.of_nat (length l)) s -> V (Z.of_nat (length l)) s -> Forall (op_room (Z.of_nat (length l))) l -> drun s l = Some s' -> V 0 s'.
Proof.
  induction l as [|o l IH]; intros s s' GG UU FF VV Ho E; cbn [Decentralized.drun] in E; [now injection E as <-|].
  destruct (dstep s o) as [s1|] eqn:E1; [|discriminate]. cbn [length] in *. rewrite Nat2Z.inj_succ in *. inversion Ho as [|? ? Ho1 Ho2]; subst.
  apply (IH s1); [now apply (G_step s o)|now apply (U_step s o)| | | |exact E].
  - apply (F_step _ s o); [lia|exact GG|exact FF|exact Ho1|exact E1].
  - apply (V_step _ s o); [lia|exact GG|exact UU|exact FF|exact VV|exact Ho1|exact E1].
  - eapply Forall_impl; [|exact Ho2]. intros x. apply op_room_weaken. lia.
Qed.
Lemma V_init clock n : V n (dinit start sta clock ports0).
Proof.
  constructor; try (intros; contradiction).
  intros j q Eq. left. pose proof (g_known _ _ (G_ps _ (G_init clock)) j q Eq) as K. cbn [d_ann dinit].
  assert (Hk : PS.known q = NEVER_TAG).
  { change (nth_error ports0 j = Some q) in Eq. destruct Hcfg as (_ & _ & _ & _ & Hp). now destruct (Hp j q Eq) as (_ & Hp2 & _). }
  rewrite Hk. apply tag_le_refl.
Qed.

(** The thread that assumes inputs absent unblocks the execution. *)
Definition behind (s : dfed) : list nat :=
  filter (fun j => match nth_error (PS.ports (d_ps s)) j with Some q => tag_ltb (PS.known q) (cur s) | None => false end) (seq 0 (length (PS.ports (d_ps s)))).
Lemma filter_less {A} (f g : A -> bool) l x : (forall y, In y l -> f y = true -> g y = true) -> In x l -> g x = true -> f x = false -> (length (filter f l) < length (filter g l))%nat.
Proof.
  intros H Hx Gx Fx. induction l as [|a l IH]; [contradiction|]. cbn [filter].
  assert (Le : forall l', (forall y, In y l' -> f y = true -> g y = true) -> (length (filter f l') <= length (filter g l'))%nat).
  { induction l' as [|b l' IH']; intros H'; cbn [filter]; [lia|]. pose proof (H' b (or_introl eq_refl)) as Hb. specialize (IH' (fun y Hy => H' y (or_intror Hy))).
    destruct (f b); [rewrite Hb by reflexivity; cbn [length]; lia|]. destruct (g b); cbn [length]; lia. }
  destruct Hx as [->|Hx].
  - rewrite Fx, Gx. cbn [length]. specialize (Le l (fun y Hy => H y (or_intror Hy))). lia.
  - specialize (IH (fun y Hy => H y (or_intror Hy)) Hx). pose proof (H a (or_introl eq_refl)) as Ha. destruct (f a); [rewrite Ha by reflexivity; cbn [length]; lia|]. destruct (g a); cbn [length]; lia.
Qed.

Lemma unblock k : forall s, (length (behind s) <= k)%nat -> G s -> d_phase s = Running -> (forall j q, In j (d_seen s) -> nth_error (PS.ports (d_ps s)) j = Some q -> tag_le (cur s) (PS.known q)) -> all_expired sta staa s ->
  exists l s', drun s (map DAssume l) = Some s' /\ unblocked s' /\ cur s' = cur s.
Proof.
  induction k as [|k IH]; intros s Hk GG Ph Se Ex.
  all: destruct (g_some _ _ (G_ps _ GG)) as [M|(j & q & Eq & Pq & L & _)]; [exists [], s; now split|].
  all: rewrite Ph in L; cbn [eff] in L; fold (cur s) in L.
  all: assert (Hb : In j (behind s)) by (apply filter_In; split; [apply in_seq; split; [lia|cbn; apply nth_error_Some; congruence]|rewrite Eq; now apply ltb_spec]).
  { destruct (behind s); [contradiction|cbn [length] in Hk; lia]. }
  destruct (Ex j q Eq Pq) as (u & Eu & Lu).
  assert (Ns : existsb (Nat.eqb j) (d_seen s) = false).
  { apply not_true_is_false. intros K. apply existsb_exists in K. destruct K as (j' & Hj & K). apply Nat.eqb_eq in K. subst j'. specialize (Se j q Hj Eq). apply (tag_lt_irrefl (cur s)). now apply (tag_le_lt_trans _ (PS.known q)). }
  assert (Xp : expired (d_clock s) u = true) by (unfold expired; apply Z.ltb_lt; unfold MIN_SLEEP; lia).
  assert (exists ps', PS.step true start (d_ps s) (PS.OAssumeAbsent j) = Some ps') as (ps' & Es).
  { cbn [PS.step]. unfold PS.update_port. rewrite Eq. cbv zeta. repeat match goal with |- context [if ?b then _ else _] => destruct b end; eexists; reflexivity. }
  assert (E1 : dstep s (DAssume j) = Some (mkDfed (d_clock s) (d_phase s) ps' (d_queue s) (d_last s) (j :: d_seen s) (d_reading s) (d_horizon s) (d_waited s) (d_level s) (d_ann s) (d_arrived s) (d_exec s))).
  { cbn [Decentralized.dstep]. cbv zeta. rewrite Eq, Eu. unfold running. rewrite Ph, Ns, Pq, Xp. cbn [negb andb]. rewrite Es. reflexivity. }
  pose proof (G_step _ _ _ GG E1) as G1. set (s1 := mkDfed _ _ ps' _ _ _ _ _ _ _ _ _ _) in *.
  cbn [PS.step] in Es. destruct (update_chg _ _ _ _ Es) as (Ec & Est & _).
  assert (Ecs : cur s1 = cur s) by exact Ec. fold (cur s) in Es.
  assert (X : PP.later (cur s) (cur s) = cur s) by (destruct (later_cases (cur s) (cur s)) as [[-> _]|[-> _]]; reflexivity).
  assert (K : forall i q', nth_error (PS.ports ps') i = Some q' -> exists q0, nth_error (PS.ports (d_ps s)) i = Some q0 /\ strip q' = strip q0 /\ PS.known q' = if (j =? i)%nat then cur s else PS.known q0).
  { intros i q' E'. symmetry in Est. destruct (strip_nth _ _ _ _ Est E') as (q0 & E0 & S0). exists q0. split; [exact E0|]. split; [now symmetry|]. destruct (known_update _ _ _ _ _ _ Es E0) as (q2 & E2 & _ & K2). fold (cur s) in K2. rewrite X in K2. assert (q2 = q') by congruence. subst q2. rewrite K2.
    destruct (Nat.eqb_spec j i) as [Ej|_]; [|reflexivity]. subst i. assert (q0 = q) by congruence. subst q0. destruct (absorb_cases (cur s) (PS.known q)) as [[L2 _]|[[L2 _]|[_ ->]]]; [| |reflexivity]; exfalso; apply (tag_lt_irrefl (cur s)).
    - now apply (tag_lt_trans _ (PS.known q)).
    - now rewrite L2 at 1. }
  assert (Len : length (PS.ports ps') = length (PS.ports (d_ps s))) by (apply (f_equal (@length _)) in Est; now rewrite !map_length in Est).
  destruct (IH s1) as (l & s' & R & Un & Cu).
  - enough (length (behind s1) < length (behind s))%nat by lia. unfold behind. dproj. rewrite Ecs. change (PS.ports (d_ps s1)) with (PS.ports ps'). rewrite Len. apply (filter_less _ _ _ j).
    + intros i Hi. destruct (nth_error (PS.ports ps') i) as [q'|] eqn:E'; [|discriminate]. destruct (K i q' E') as (q0 & E0 & _ & Kq). rewrite E0, Kq. destruct (j =? i)%nat; [|auto]. intros Bad. apply ltb_spec in Bad. now apply tag_lt_irrefl in Bad.
    + apply filter_In in Hb. apply Hb.
    + apply filter_In in Hb. apply Hb.
    + destruct (nth_error (PS.ports ps') j) as [q'|] eqn:E'; [|reflexivity]. destruct (K j q' E') as (q0 & E0 & _ & Kq). rewrite Kq, Nat.eqb_refl. apply ltb_false, tag_le_refl.
  - exact G1.
  - exact Ph.
  - intros i q' Hi E'. rewrite Ecs. destruct (K i q' E') as (q0 & E0 & _ & ->). destruct (Nat.eqb_spec j i) as [_|Nj]; [apply tag_le_refl|]. destruct Hi as [Hi|Hi]; [congruence|]. now apply (Se i).
  - intros i q' E' P'. destruct (K i q' E') as (q0 & E0 & S0 & _). destruct (strip_eq _ _ S0) as (Sp & _). rewrite Ecs. change (d_clock s1) with (d_clock s). apply (Ex i q0 E0). congruence.
  - exists (j :: l), s'. cbn [map Decentralized.drun]. rewrite E1. split; [exact R|]. split; [exact Un|congruence].
Qed.
End S.
