(** Proofs about the status of network input ports. *)
From Verif Require Import Base Tag TagSpec TagProofs RtiProofs PortStatus PortStatusSpec.
Open Scope Z_scope.

Definition cur_ok (start : Z) (s : fed) : Prop :=
  tag_ok (cur s) /\ tag_le (mkTag start 0) (cur s) /\ ttime (cur s) < FOREVER.
Definition ports_ok (s : fed) : Prop := Forall port_ok (ports s).

Lemma skipped_central start s p : skipped false start s p = false.
Proof. reflexivity. Qed.

Lemma skipped_spec start s p : NEVER < start -> cur_ok start s -> port_ok p ->
  skipped true start s p = true <-> ~ can_arrive start (delay p) (cur s).
Proof.
  intros Hs (Hc & Hsc & Hf) (_ & _ & Hd & Hdf). unfold skipped, can_arrive. cbn [andb].
  destruct (Z.lt_trichotomy (delay p) 0) as [K|[K|K]].
  - replace (delay p =? 0) with false by lia. replace (0 <? delay p) with false by lia. cbn [andb orb].
    split; [discriminate|]. intros N. exfalso. apply N. exists (mkTag start 0).
    rewrite (delay_tag_no_delay _ _ K).
    split; [|split; [|split; [apply tag_le_refl|exact Hsc]]]; tag_consts; lia.
  - rewrite K. cbn [Z.eqb Z.ltb Z.compare andb orb]. rewrite orb_false_r.
    split.
    + intros E. apply andb_prop in E as [E1 E2]. intros (x & Hx & Hm & Hl & Hle).
      unfold delay_tag in Hle. destruct (cur s) as [ct cm]. cbn [ttime tmicro] in *.
      destruct x as [xt xm].
      revert Hle. cbn [Z.ltb Z.compare]. cbn [ttime tmicro] in *.
      rewrite orb_false_r.
      assert (xt <> NEVER) by (tag_consts; lia).
      replace (xt =? NEVER) with false by lia.
      destruct (FOREVER - 0 <=? xt); cbn [Z.eqb]; intros Hle.
      * tag_consts. lia.
      * rewrite Z.mod_small in Hle by (tag_consts; lia). tag_consts. lia.
    + intros N. destruct ((ttime (cur s) =? start) && (tmicro (cur s) =? 0)) eqn:E; [reflexivity|].
      exfalso. apply N. exists (mkTag start 0).
      split; [|split; [|split; [apply tag_le_refl|]]]; try (tag_consts; lia).
      unfold delay_tag. cbn [ttime tmicro]. replace (start =? NEVER) with false by lia.
      replace (FOREVER - 0 <=? start) with false by (tag_consts; lia). cbn [Z.ltb Z.compare orb Z.eqb].
      replace ((0 + 1) mod two32) with 1 by reflexivity.
      destruct (cur s) as [ct cm]. cbn [ttime tmicro] in *. tag_consts. lia.
  - replace (delay p =? 0) with false by lia. replace (0 <? delay p) with true by lia. cbn [andb orb].
    rewrite cmp_le0.
    destruct (Z.lt_ge_cases (start + delay p) FOREVER) as [F|F].
    + destruct (delay_strict_latest (mkTag start 0) (delay p)) as [L1 L2];
        try (cbn [ttime]; lia); try (tag_consts; lia).
      split.
      * intros Hle (x & Hx & Hm & Hl & Hx').
        apply (tag_lt_irrefl (cur s)). eapply tag_le_lt_trans; [exact Hle|]. eapply tag_lt_le_trans; [exact L1|].
        eapply tag_le_trans; [|exact Hx']. apply delay_tag_mono; try assumption; try lia. tag_consts; lia.
      * intros N. apply L2; [assumption|]. apply tag_not_le. intros H. apply N. exists (mkTag start 0).
        split; [|split; [|split; [apply tag_le_refl|exact H]]]; tag_consts; lia.
    + assert (Ed : forall x, tag_le (mkTag start 0) x -> delay_tag x (delay p) = FOREVER_TAG).
      { intros x Hx. unfold delay_tag. destruct x as [xt xm]. cbn [ttime tmicro].
        replace (xt =? NEVER) with false by (tag_consts; lia).
        replace (delay p <? 0) with false by lia. cbn [orb].
        replace (FOREVER - delay p <=? xt) with true; [reflexivity|]. symmetry. apply Z.leb_le. tag_consts; lia. }
      split.
      * intros _ (x & Hx & Hm & Hl & Hx'). rewrite (Ed x Hl) in Hx'. tag_consts; lia.
      * intros _. unfold delay_strict. rewrite (Ed _ (tag_le_refl _)).
        assert (tag_le (cur s) FOREVER_TAG) by (apply tag_forever_greatest; assumption).
        cbn [ttime FOREVER_TAG]. rewrite (Z.eqb_refl FOREVER). cbn [negb]. rewrite andb_false_r. assumption.
Qed.

Section B.
Variable dec : bool.
Variable start : Z.
Hypothesis Hstart : NEVER < start.

Definition blocks (s : fed) (p : port) : bool :=
  negb (skipped dec start s p) && ((0 <? tag_compare (cur s) (known p)) && negb (physical p)).

Lemma fold_levels s l m : m <= INT_MAX -> Forall (fun p => 0 <= level p < 65536) l ->
  let r := fold_left (level_of_port dec start s) l m in
  r <= m /\ (forall p, In p l -> blocks s p = true -> r <= level p) /\
  (r = m \/ exists p, In p l /\ blocks s p = true /\ level p = r).
Proof.
  revert m. induction l as [|p l IH]; intros m Hm Hl; cbn [fold_left].
  - split; [lia|]. split; [intros p []|now left].
  - inversion Hl as [|? ? Hp Hr]; subst.
    assert (E : level_of_port dec start s m p = if blocks s p then Z.min m (level p) else m).
    { unfold level_of_port, blocks. destruct (skipped dec start s p); [reflexivity|].
      cbn [negb andb]. reflexivity. }
    rewrite E. set (m' := if blocks s p then Z.min m (level p) else m).
    assert (Hm' : m' <= m) by (unfold m'; destruct (blocks s p); lia).
    destruct (IH m') as (A1 & A2 & A3); [lia|assumption|].
    split; [lia|]. split.
    + intros q [<-|Hq] Hb; [|now apply A2]. unfold m' in A1. rewrite Hb in A1. unfold m'. rewrite Hb. lia.
    + destruct A3 as [A3|(q & Hq & Hb & Hlq)].
      * unfold m' in A3 at 2. destruct (blocks s p) eqn:Hb; [|left; exact A3].
        destruct (Z.le_gt_cases m (level p)) as [G|G].
        -- left. rewrite A3. lia.
        -- right. exists p. split; [now left|]. split; [exact Hb|]. rewrite A3. lia.
      * right. exists q. split; [now right|]. now split.
Qed.

Lemma blocks_unknown s p : cur_ok start s -> port_ok p ->
  (blocks s p = true /\ (dec = false -> in_cycle p = true /\ ~ granted s)) <-> unknown dec start s p.
Proof.
  intros Hc Hp. unfold blocks, unknown. rewrite !andb_true_iff, cmp_gt0, !negb_true_iff.
  destruct dec.
  - pose proof (skipped_spec start s p Hstart Hc Hp) as E.
    split.
    + intros ((H1 & H2 & H3) & _). split; [exact H3|]. split; [exact H2|].
      assert (~ ~ can_arrive start (delay p) (cur s)) as NN.
      { intros N. apply E in N. congruence. }
      (* decidable: rebuild the witness *)
      destruct (Z.lt_trichotomy (delay p) 0) as [K|[K|K]].
      * exists (mkTag start 0). rewrite (delay_tag_no_delay _ _ K).
        destruct Hc as (? & ? & ?). split; [|split; [|split; [apply tag_le_refl|assumption]]]; tag_consts; lia.
      * destruct (tag_le_total (delay_tag (mkTag start 0) (delay p)) (cur s)) as [G|G].
        -- exists (mkTag start 0). destruct Hc as (? & ? & ?).
           split; [|split; [|split; [apply tag_le_refl|assumption]]]; tag_consts; lia.
        -- exfalso. apply NN. intros (x & Hx & Hm & Hl & Hle).
           apply (tag_lt_irrefl (cur s)). eapply tag_lt_le_trans; [exact G|].
           eapply tag_le_trans; [|exact Hle]. destruct Hp as (_ & _ & ? & _).
           apply delay_tag_mono; try assumption; [|intros _; assumption].
           destruct Hc as (? & ? & ?). tag_consts; lia.
      * destruct (tag_le_total (delay_tag (mkTag start 0) (delay p)) (cur s)) as [G|G].
        -- exists (mkTag start 0). destruct Hc as (? & ? & ?).
           split; [|split; [|split; [apply tag_le_refl|assumption]]]; tag_consts; lia.
        -- exfalso. apply NN. intros (x & Hx & Hm & Hl & Hle).
           apply (tag_lt_irrefl (cur s)). eapply tag_lt_le_trans; [exact G|].
           eapply tag_le_trans; [|exact Hle]. destruct Hp as (_ & _ & ? & _).
           apply delay_tag_mono; try assumption; [|intros _; assumption].
           destruct Hc as (? & ? & ?). tag_consts; lia.
    + intros (H1 & H2 & H3). split; [|discriminate]. split; [|now split].
      destruct (skipped true start s p); [|reflexivity]. exfalso. now apply (proj1 E eq_refl).
  - rewrite skipped_central. split.
    + intros ((_ & H2 & H3) & H4). split; [exact H3|]. split; [exact H2|]. now apply H4.
    + intros (H1 & H2 & H3). split; [now split|]. intros _. exact H3.
Qed.

Definition grant_covers (s : fed) (t : tag) (prov : bool) : bool :=
  (tag_compare (cur s) t <? 0) || ((tag_compare (cur s) t =? 0) && negb prov).

Lemma grant_covers_spec s : grant_covers s (last_grant s) (provisional s) = true <-> granted s.
Proof.
  unfold grant_covers, granted. rewrite orb_true_iff, andb_true_iff, cmp_lt0, cmp_eq0, negb_true_iff. reflexivity.
Qed.

Lemma ports_levels s : ports_ok s -> forall l, incl l (ports s) -> Forall (fun p => 0 <= level p < 65536) l.
Proof. intros H l Hl. apply Forall_forall. intros p Hp. apply Hl in Hp. unfold ports_ok in H. rewrite Forall_forall in H. now apply H. Qed.

Lemma max_level_right s : cur_ok start s -> ports_ok s ->
  mlaa s = max_level dec start s (last_grant s) (provisional s) -> mlaa_right dec start s.
Proof.
  intros Hc Hp Hm.
  assert (U : forall p, In p (ports s) ->
     (blocks s p = true /\ (dec = false -> in_cycle p = true /\ ~ granted s)) <-> unknown dec start s p).
  { intros p Hin. apply blocks_unknown; [assumption|]. unfold ports_ok in Hp. rewrite Forall_forall in Hp. now apply Hp. }
  unfold max_level in Hm. fold (grant_covers s (last_grant s) (provisional s)) in Hm.
  destruct (negb dec && grant_covers s (last_grant s) (provisional s)) eqn:G.
  - apply andb_prop in G as [G1 G2]. apply grant_covers_spec in G2. apply negb_true_iff in G1.
    assert (N : forall p, In p (ports s) -> ~ unknown dec start s p).
    { intros p Hin Hu. apply U in Hu; [|assumption]. destruct Hu as [_ Hu]. now apply (Hu G1). }
    split; [intros p Hin Hu; exfalso; now apply (N p)|]. split; [split; auto|]. intros K. now apply K in Hm.
  - assert (T : incl (table dec s) (ports s)).
    { unfold table. destruct dec; [apply incl_refl|]. intros p Hp'. now apply filter_In in Hp' as [? _]. }
    destruct (fold_levels s (table dec s) INT_MAX) as (A1 & A2 & A3); [lia|now apply ports_levels with s|].
    rewrite <- Hm in A1, A2, A3.
    assert (V : forall p, In p (ports s) -> unknown dec start s p <-> (In p (table dec s) /\ blocks s p = true)).
    { intros p Hin. rewrite <- (U p Hin). unfold table. destruct dec; cbn [negb andb] in G.
      - split; [intros [? ?]; now split|]. intros [? ?]. split; [assumption|discriminate].
      - rewrite filter_In. split.
        + intros [B1 B2]. destruct (B2 eq_refl). split; [now split|assumption].
        + intros [[B1 B2] B3]. split; [assumption|]. intros _. split; [assumption|].
          rewrite <- grant_covers_spec. congruence. }
    split; [intros p Hin Hu; apply V in Hu as [? ?]; auto|]. split.
    + split.
      * intros E p Hin Hu. apply V in Hu as [B1 B2]; [|assumption]. specialize (A2 p B1 B2).
        assert (0 <= level p < 65536). { pose proof (ports_levels s Hp _ T) as F. rewrite Forall_forall in F. now apply F. }
        unfold INT_MAX in *. lia.
      * intros N. destruct A3 as [A3|(p & B1 & B2 & _)]; [exact A3|]. exfalso.
        apply (N p (T p B1)). apply V; auto.
    + intros K. destruct A3 as [A3|(p & B1 & B2 & B3)]; [contradiction|].
      exists p. split; [auto|]. split; [apply V; auto|]. exact B3.
Qed.

(** ** Preservation. *)
Definition inv (s : fed) : Prop := cur_ok start s /\ ports_ok s /\ mlaa_right dec start s.

Lemma replace_Forall (P : port -> Prop) l i q : Forall P l -> P q -> Forall P (replace l i q).
Proof.
  intros H Hq. revert i. induction H as [|p l Hp Hl IH]; intros [|i]; cbn [replace]; constructor; auto.
Qed.
Lemma set_known_ok p t : port_ok p -> tag_ok t -> port_ok (set_known p t).
Proof. intros (A & B & C) H. unfold port_ok, set_known. cbn. tauto. Qed.
Lemma bump_ok t : tag_ok t -> tag_ok (mkTag (ttime t) ((tmicro t + 1) mod two32)).
Proof. intros [A B]. split; [exact A|]. cbn [tmicro]. pose proof (Z.mod_pos_bound (tmicro t + 1) two32). unfold in_uint32, UINT_MAX, two32 in *. lia. Qed.

Lemma update_port_inv s t i s' : inv s -> tag_ok t -> update_port dec start s t i = Some s' -> inv s'.
Proof.
  intros (Hc & Hp & Hm) Ht E. unfold update_port in E.
  set (t1 := if tag_compare t (cur s) <? 0 then cur s else t) in *.
  assert (Ht1 : tag_ok t1). { unfold t1. destruct (tag_compare t (cur s) <? 0); [apply Hc|exact Ht]. }
  destruct (nth_error (ports s) i) as [p|] eqn:Hn; [|discriminate].
  set (t2 := if tag_compare t1 (known p) =? 0 then _ else t1) in *.
  assert (Ht2 : tag_ok t2). { unfold t2. case_if; [now apply bump_ok|exact Ht1]. }
  destruct (0 <=? tag_compare t1 (known p)); injection E as <-; [|now split].
  assert (Hpp : port_ok p). { unfold ports_ok in Hp. rewrite Forall_forall in Hp. apply Hp. now apply nth_error_In with i. }
  split; [exact Hc|].
  assert (P' : ports_ok (update_max_level dec start (set_ports s (replace (ports s) i (set_known p t2))) (last_grant s) (provisional s))).
  { unfold ports_ok. cbn. apply replace_Forall; [exact Hp|]. now apply set_known_ok. }
  split; [exact P'|]. apply max_level_right; [exact Hc|exact P'|reflexivity].
Qed.

Lemma gone_from_inv f l : forall s i s', inv s -> gone_from dec start s f l i = Some s' -> inv s'.
Proof.
  induction l as [|p l IH]; intros s i s' Hi E; cbn [gone_from] in E.
  - now injection E as <-.
  - destruct (Nat.eqb (source p) f); [|now apply (IH s (S i) s')].
    destruct (update_port dec start s FOREVER_TAG i) as [s1|] eqn:U; [|discriminate].
    apply (IH s1 (S i) s'); [|exact E]. apply (update_port_inv s FOREVER_TAG i); [exact Hi| |exact U]. tag_consts; lia.
Qed.

Lemma known_ok s i p : ports_ok s -> nth_error (ports s) i = Some p -> tag_ok (known p).
Proof. intros H E. unfold ports_ok in H. rewrite Forall_forall in H. apply nth_error_In in E. now destruct (H p E). Qed.

Lemma actual_tag_ok s t p : tag_ok (cur s) -> tag_ok t -> tag_ok (known p) -> tag_ok (actual_tag dec s t p).
Proof. intros A B C. unfold actual_tag. repeat case_if; auto using bump_ok. Qed.

Lemma step_inv s o s' : inv s -> op_ok start o -> fresh_grant s o -> step dec start s o = Some s' -> inv s'.
Proof.
  intros I Ho Hf E. pose proof I as (Hc & Hp & Hm). destruct o; cbn [step op_ok fresh_grant] in *.
  - (* TAG *)
    set (newer := fun p : port => 0 <=? tag_compare t (known p)) in *.
    set (l := map (fun p => if newer p then set_known p t else p) (ports s)).
    assert (L : Forall port_ok l).
    { unfold l. apply Forall_forall. intros q Hq. apply in_map_iff in Hq as (p & <- & Hin).
      unfold ports_ok in Hp. rewrite Forall_forall in Hp. specialize (Hp p Hin). case_if; [now apply set_known_ok|exact Hp]. }
    assert (G : last_grant (update_all dec start s t) = last_grant s).
    { unfold update_all. cbn zeta. case_if; reflexivity. }
    rewrite G in E. apply cmp_ge0 in Hf. rewrite Hf in E. injection E as <-. apply cmp_ge0 in Hf.
    change (update_all dec start s t) with (if existsb newer (ports s) then update_max_level dec start (set_ports s l) t false else set_ports s l).
    destruct (existsb newer (ports s)) eqn:X.
    + assert (P' : ports_ok (mkFed l (cur s) t false (max_level dec start (set_ports s l) t false))) by exact L.
      split; [exact Hc|]. split; [exact P'|]. apply max_level_right; [exact Hc|exact P'|reflexivity].
    + assert (L' : l = ports s).
      { unfold l. rewrite <- (map_id (ports s)) at 2. apply map_ext_in. intros p Hin.
        destruct (newer p) eqn:N; [|reflexivity]. exfalso. apply (Bool.eq_true_false_abs _ (proj2 (existsb_exists newer (ports s)) (ex_intro _ p (conj Hin N))) X). }
      rewrite L'. cbn [ports set_ports cur mlaa]. split; [exact Hc|]. split; [exact Hp|].
      assert (U : forall p, In p (ports s) -> unknown dec start (mkFed (ports s) (cur s) t false (mlaa s)) p <-> unknown dec start s p).
      { intros p Hin. unfold unknown. cbn [cur]. destruct dec; [reflexivity|]. unfold granted. cbn [cur last_grant provisional].
        assert (K : tag_lt t (known p)).
        { apply tag_not_le. intros N. apply cmp_ge0 in N. apply (Bool.eq_true_false_abs _ (proj2 (existsb_exists newer (ports s)) (ex_intro _ p (conj Hin N))) X). }
        split; intros (A & B & C & D); (split; [exact A|]; split; [exact B|]; split; [exact C|]).
        - intros [Q|[Q _]].
          + apply (tag_lt_irrefl (cur s)). eapply tag_lt_trans; [exact Q|]. eapply tag_le_lt_trans; [exact Hf|]. eapply tag_lt_trans; eassumption.
          + apply (tag_lt_irrefl (cur s)). rewrite Q at 1. eapply tag_le_lt_trans; [exact Hf|]. eapply tag_lt_trans; eassumption.
        - intros [Q|[Q _]].
          + apply (tag_lt_irrefl (cur s)). eapply tag_lt_trans; [exact Q|]. eapply tag_lt_trans; eassumption.
          + apply (tag_lt_irrefl (cur s)). rewrite Q at 1. eapply tag_lt_trans; eassumption. }
      destruct Hm as (M1 & M2 & M3). cbn [ports mlaa]. split; [|split].
      * intros p Hin Hu. apply M1; [exact Hin|]. now apply U.
      * cbn [mlaa ports]. rewrite M2. split; intros Q p Hin Hu; apply (Q p Hin); now apply U.
      * intros Q. destruct (M3 Q) as (p & A & B & C). exists p. split; [exact A|]. split; [now apply U|exact C].
  - (* PTAG *)
    case_if; [discriminate|]. injection E as <-. split; [exact Hc|]. split; [exact Hp|].
    apply max_level_right; [exact Hc|exact Hp|reflexivity].
  - eapply update_port_inv; eassumption.
  - destruct (nth_error (ports s) i) as [p|] eqn:Hn; [|discriminate].
    eapply update_port_inv; [exact I| |exact E]. apply actual_tag_ok; [apply Hc|exact Ho|]. eapply known_ok; eassumption.
  - eapply update_port_inv; eassumption.
  - destruct dec eqn:D; rewrite <- ?D in *; [|now injection E as <-]. eapply update_port_inv; [exact I| |exact E]. apply Hc.
  - unfold gone in E. destruct dec eqn:D; rewrite <- ?D in *; [|now injection E as <-]. eapply gone_from_inv; eassumption.
  - injection E as <-. destruct Ho as (A & B & C).
    assert (C' : cur_ok start (update_max_level dec start (mkFed (ports s) t (last_grant s) (provisional s) (mlaa s)) (last_grant s) (provisional s))) by (split; [exact A|now split]).
    split; [exact C'|]. split; [exact Hp|]. apply max_level_right; [exact C'|exact Hp|reflexivity].
Qed.

Lemma run_inv l : forall s s', inv s -> ok_run dec start s l -> run dec start s l = Some s' -> inv s'.
Proof.
  induction l as [|o l IH]; intros s s' I R E; cbn [run ok_run] in *.
  - now injection E as <-.
  - destruct R as (A & B & C). destruct (step dec start s o) as [s1|] eqn:S1; [|discriminate].
    apply (IH s1); [eapply step_inv; eassumption|exact C|exact E].
Qed.

Lemma boot_inv l : in_int64 start -> start < FOREVER -> Forall port_ok l -> inv (boot dec start l).
Proof.
  intros H1 H2 H3.
  assert (C : cur_ok start (boot dec start l)).
  { split; [|split; [apply tag_le_refl|exact H2]]. cbn. tag_consts; lia. }
  split; [exact C|]. split; [exact H3|]. apply max_level_right; [exact C|exact H3|reflexivity].
Qed.

(** ** The known tags. *)
Definition later (t c : tag) : tag := if tag_compare t c <? 0 then c else t.
Definition absorb (t a : tag) : tag :=
  if tag_compare t a <? 0 then a
  else if tag_compare t a =? 0 then mkTag (ttime t) ((tmicro t + 1) mod two32) else t.

Lemma nth_replace l i q j : nth_error (replace l i q) j =
  if Nat.eqb i j then match nth_error l i with None => None | Some _ => Some q end else nth_error l j.
Proof.
  revert i j. induction l as [|p l IH]; intros i j; cbn [replace].
  - destruct i, j; cbn; try reflexivity. now destruct (Nat.eqb i j).
  - destruct i, j; cbn [replace nth_error Nat.eqb]; try reflexivity. apply IH.
Qed.

Lemma update_port_known s t i s' : update_port dec start s t i = Some s' ->
  cur s' = cur s /\ map source (ports s') = map source (ports s) /\
  forall j, known_at s' j = if Nat.eqb i j then option_map (absorb (later t (cur s))) (known_at s j) else known_at s j.
Proof.
  unfold update_port. fold (later t (cur s)). set (t1 := later t (cur s)). intros E.
  destruct (nth_error (ports s) i) as [p|] eqn:Hn; [|discriminate].
  cbn zeta in E.
  assert (A : absorb t1 (known p) = if 0 <=? tag_compare t1 (known p) then
      (if tag_compare t1 (known p) =? 0 then mkTag (ttime t1) ((tmicro t1 + 1) mod two32) else t1) else known p).
  { unfold absorb. destruct (Z.ltb_spec (tag_compare t1 (known p)) 0); destruct (Z.leb_spec 0 (tag_compare t1 (known p))); try lia; reflexivity. }
  destruct (0 <=? tag_compare t1 (known p)) eqn:C; injection E as <-.
  - split; [reflexivity|]. cbn. split.
    + clear - Hn. revert i Hn. induction (ports s) as [|q l IH]; intros [|i] Hn; cbn in *; try reflexivity; try discriminate.
      * now injection Hn as ->.
      * f_equal. now apply IH.
    + intros j. unfold known_at. cbn. rewrite nth_replace. destruct (Nat.eqb_spec i j) as [<-|ne]; [|reflexivity].
      rewrite Hn. cbn [option_map set_known known]. now rewrite A.
  - split; [reflexivity|]. split; [reflexivity|]. intros j. destruct (Nat.eqb_spec i j) as [<-|ne]; [|reflexivity].
    unfold known_at. rewrite Hn. cbn [option_map]. now rewrite A.
Qed.

Lemma gone_from_known f l : forall s i s', gone_from dec start s f l i = Some s' ->
  cur s' = cur s /\ map source (ports s') = map source (ports s) /\
  forall j, known_at s' j =
    if match nth_error l (j - i) with Some p => (i <=? j)%nat && Nat.eqb (source p) f | None => false end
    then option_map (absorb (later FOREVER_TAG (cur s))) (known_at s j) else known_at s j.
Proof.
  induction l as [|p l IH]; intros s i s' E; cbn [gone_from] in E.
  - injection E as <-. split; [reflexivity|]. split; [reflexivity|]. intros j. now destruct (j - i)%nat.
  - destruct (Nat.eqb (source p) f) eqn:Q.
    + destruct (update_port dec start s FOREVER_TAG i) as [s1|] eqn:U; [|discriminate].
      destruct (update_port_known _ _ _ _ U) as (U1 & U2 & U3).
      destruct (IH _ _ _ E) as (V1 & V2 & V3).
      split; [congruence|]. split; [congruence|]. intros j. rewrite V3, U1, U3.
      destruct (Nat.lt_trichotomy j i) as [K|[->|K]].
      * replace (j - S i)%nat with 0%nat by lia. replace (j - i)%nat with 0%nat by lia.
        replace (i =? j)%nat with false by (symmetry; apply Nat.eqb_neq; lia).
        replace (i <=? j)%nat with false by (symmetry; apply Nat.leb_gt; lia).
        replace (S i <=? j)%nat with false by (symmetry; apply Nat.leb_gt; lia). destruct l; reflexivity.
      * rewrite Nat.eqb_refl. replace (i - S i)%nat with 0%nat by lia. replace (i - i)%nat with 0%nat by lia.
        replace (S i <=? i)%nat with false by (symmetry; apply Nat.leb_gt; lia).
        cbn [nth_error]. rewrite Nat.leb_refl, Q. destruct l; reflexivity.
      * replace (i =? j)%nat with false by (symmetry; apply Nat.eqb_neq; lia).
        replace (j - i)%nat with (S (j - S i)) by lia. cbn [nth_error].
        replace (i <=? j)%nat with true by (symmetry; apply Nat.leb_le; lia).
        replace (S i <=? j)%nat with true by (symmetry; apply Nat.leb_le; lia). reflexivity.
    + destruct (IH _ _ _ E) as (V1 & V2 & V3). split; [exact V1|]. split; [exact V2|]. intros j. rewrite V3.
      destruct (Nat.lt_trichotomy j i) as [K|[->|K]].
      * replace (j - S i)%nat with 0%nat by lia. replace (j - i)%nat with 0%nat by lia.
        replace (i <=? j)%nat with false by (symmetry; apply Nat.leb_gt; lia).
        replace (S i <=? j)%nat with false by (symmetry; apply Nat.leb_gt; lia).
        destruct l; reflexivity.
      * replace (i - S i)%nat with 0%nat by lia. replace (i - i)%nat with 0%nat by lia.
        replace (S i <=? i)%nat with false by (symmetry; apply Nat.leb_gt; lia).
        cbn [nth_error]. rewrite Q, andb_false_r. destruct l; reflexivity.
      * replace (j - i)%nat with (S (j - S i)) by lia. cbn [nth_error].
        replace (i <=? j)%nat with true by (symmetry; apply Nat.leb_le; lia).
        replace (S i <=? j)%nat with true by (symmetry; apply Nat.leb_le; lia). reflexivity.
Qed.

Lemma absorb_le t a : tag_ok a -> tmicro a < UINT_MAX -> tag_le a (absorb t a).
Proof.
  intros Ha Hm. unfold absorb. case_if; [apply tag_le_refl|]. case_if.
  - match goal with H : (_ =? 0) = true |- _ => apply cmp_eq0 in H; subst t end.
    rewrite Z.mod_small by (tag_consts; lia). unfold tag_le. cbn [ttime tmicro]. lia.
  - now apply cmp_lt0_false.
Qed.

Lemma tag_known s t i : known_at (update_all dec start s t) i =
  option_map (fun a => later t a) (known_at s i).
Proof.
  assert (P : ports (update_all dec start s t) = map (fun p => if 0 <=? tag_compare t (known p) then set_known p t else p) (ports s)).
  { unfold update_all. cbn zeta. case_if; reflexivity. }
  unfold known_at. rewrite P, nth_error_map. destruct (nth_error (ports s) i) as [p|]; [|reflexivity]. cbn [option_map].
  f_equal. unfold later. destruct (Z.ltb_spec (tag_compare t (known p)) 0); destruct (Z.leb_spec 0 (tag_compare t (known p))); try lia; reflexivity.
Qed.
Lemma later_le t a : tag_le a (later t a).
Proof. unfold later. case_if; [apply tag_le_refl|]. now apply cmp_lt0_false. Qed.

Lemma later_micro t c : tmicro (later t c) = tmicro t \/ tmicro (later t c) = tmicro c.
Proof. unfold later. case_if; auto. Qed.

(** What one step does to the known tags. *)
Definition effect (s : fed) (o : op) (i : nat) (a b : tag) : Prop :=
  b = a \/
  match o with
  | OTag t => b = later t a
  | OPtag _ | OAdvance _ => False
  | OMessageNow j t | OAbsent j t => j = i /\ b = absorb (later t (cur s)) a
  | OMessageLater j t => j = i /\ exists p, nth_error (ports s) i = Some p /\ b = absorb (later (actual_tag dec s t p) (cur s)) a
  | OAssumeAbsent j => dec = true /\ j = i /\ b = absorb (later (cur s) (cur s)) a
  | OGone f => dec = true /\ option_map source (nth_error (ports s) i) = Some f /\ b = absorb (later FOREVER_TAG (cur s)) a
  end.

Lemma step_effect s o s' i a : step dec start s o = Some s' -> known_at s i = Some a ->
  exists b, known_at s' i = Some b /\ effect s o i a b.
Proof.
  intros E K. destruct o; cbn [step] in E; unfold effect.
  - pose proof (tag_known s t i) as T. rewrite K in T. cbn [option_map] in T.
    exists (later t a). split; [|now right]. destruct (0 <=? tag_compare t _) in E; injection E as <-; exact T.
  - case_if; [discriminate|]. injection E as <-. exists a. split; [exact K|now left].
  - destruct (update_port_known _ _ _ _ E) as (_ & _ & U). specialize (U i). rewrite K in U.
    destruct (Nat.eqb_spec i0 i) as [->|ne]; eauto 8.
  - destruct (nth_error (ports s) i0) as [p|] eqn:Hn; [|discriminate].
    destruct (update_port_known _ _ _ _ E) as (_ & _ & U). specialize (U i). rewrite K in U.
    destruct (Nat.eqb_spec i0 i) as [->|ne]; [|eauto 8]. cbn [option_map] in U. eexists. split; [exact U|]. right. split; [reflexivity|]. exists p. now split.
  - destruct (update_port_known _ _ _ _ E) as (_ & _ & U). specialize (U i). rewrite K in U.
    destruct (Nat.eqb_spec i0 i) as [->|ne]; eauto 8.
  - destruct dec eqn:D; [|injection E as <-; eauto].
    rewrite <- D in E. destruct (update_port_known _ _ _ _ E) as (_ & _ & U). specialize (U i). rewrite K in U.
    destruct (Nat.eqb_spec i0 i) as [->|ne]; eauto 8.
  - unfold gone in E. destruct dec eqn:D; [|injection E as <-; eauto].
    rewrite <- D in E. destruct (gone_from_known _ _ _ _ _ E) as (_ & _ & U). specialize (U i). rewrite K in U.
    rewrite Nat.sub_0_r in U. cbn [Nat.leb andb] in U.
    destruct (nth_error (ports s) i) as [p|] eqn:Hn; [|eauto].
    destruct (Nat.eqb_spec (source p) f) as [<-|ne]; [|eauto]. cbn [option_map] in *. eauto 8.
  - injection E as <-. exists a. split; [exact K|now left].
Qed.

Lemma effect_le s o i a b : tag_ok a -> tmicro a < UINT_MAX -> effect s o i a b -> tag_le a b.
Proof.
  intros Ha Hm [->|E]; [apply tag_le_refl|].
  destruct o; try contradiction.
  - subst b. apply later_le.
  - destruct E as [_ ->]. now apply absorb_le.
  - destruct E as (_ & p & _ & ->). now apply absorb_le.
  - destruct E as [_ ->]. now apply absorb_le.
  - destruct E as (_ & _ & ->). now apply absorb_le.
  - destruct E as (_ & _ & ->). now apply absorb_le.
Qed.

(** ** Runs in which no microstep overflows. *)
Definition src (s : fed) (i : nat) : option nat := option_map source (nth_error (ports s) i).
Definition rinv (n : Z) (later_gone : list nat) (s : fed) : Prop :=
  tag_ok (cur s) /\ tmicro (cur s) + n < UINT_MAX /\ ttime (cur s) < FOREVER /\
  forall i a, known_at s i = Some a -> tag_ok a /\
    (tmicro a + n < UINT_MAX \/
     (a = FOREVER_TAG /\ (dec = false \/ exists f, src s i = Some f /\ ~ In f later_gone))).

Lemma step_src s o s' : step dec start s o = Some s' -> forall i, src s' i = src s i.
Proof.
  assert (M : forall a b, map source (ports a) = map source (ports b) -> forall i, src a i = src b i).
  { intros x y H i. unfold src. rewrite <- !nth_error_map. now rewrite H. }
  intros E. destruct o; cbn [step] in E; apply M.
  - assert (P : ports s' = ports (update_all dec start s t)) by (destruct (0 <=? tag_compare t _) in E; now injection E as <-).
    rewrite P. unfold update_all. cbn zeta. assert (Q : forall l, map source (map (fun p => if 0 <=? tag_compare t (known p) then set_known p t else p) l) = map source l).
    { induction l as [|p l IH]; [reflexivity|]. cbn [map]. rewrite IH. f_equal. case_if; reflexivity. }
    case_if; cbn; apply Q.
  - case_if; [discriminate|]. now injection E as <-.
  - now destruct (update_port_known _ _ _ _ E).
  - destruct (nth_error (ports s) i) as [p|]; [|discriminate]. now destruct (update_port_known _ _ _ _ E).
  - now destruct (update_port_known _ _ _ _ E).
  - destruct dec eqn:D; rewrite <- ?D in *; [|now injection E as <-]. now destruct (update_port_known _ _ _ _ E).
  - unfold gone in E. destruct dec eqn:D; rewrite <- ?D in *; [|now injection E as <-]. now destruct (gone_from_known _ _ _ _ _ E).
  - now injection E as <-.
Qed.

Lemma absorb_micro t a n : tag_ok a -> tag_ok t -> 0 <= n -> tmicro a + (n + 1) < UINT_MAX -> tmicro t + (n + 1) < UINT_MAX ->
  tag_ok (absorb t a) /\ tmicro (absorb t a) + n < UINT_MAX.
Proof.
  intros Ha Ht Hn H1 H2. unfold absorb. case_if; [split; [assumption|lia]|]. case_if; [|split; [assumption|lia]].
  split; [now apply bump_ok|]. cbn [tmicro]. rewrite Z.mod_small; [lia|]. tag_consts; lia.
Qed.
Lemma absorb_forever t : tag_ok t -> ttime t < FOREVER \/ (ttime t = FOREVER /\ tmicro t < UINT_MAX) -> absorb t FOREVER_TAG = FOREVER_TAG.
Proof.
  intros Ht H. unfold absorb. assert (tag_lt t FOREVER_TAG) as L by (tag_consts; lia). apply cmp_lt0 in L. now rewrite L.
Qed.
Lemma later_ok t c : tag_ok t -> tag_ok c -> tag_ok (later t c).
Proof. intros. unfold later. case_if; assumption. Qed.

Lemma step_rinv n s o s' r : 0 <= n -> rinv (n + 1) (gones [o] ++ r) s -> op_ok start o -> op_room dec (n + 1) o ->
  NoDup (gones [o] ++ r) -> step dec start s o = Some s' ->
  rinv n r s' /\ forall i a, known_at s i = Some a -> exists b, known_at s' i = Some b /\ tag_le a b.
Proof.
  intros Hn (Hc & Hcm & Hcf & Hk) Ho Hr Hd E.
  assert (Cur : tag_ok (cur s') /\ tmicro (cur s') + n < UINT_MAX /\ ttime (cur s') < FOREVER).
  { destruct o; cbn [step op_ok op_room] in *.
    - assert (cur s' = cur s) as ->. { assert (cur (update_all dec start s t) = cur s) as <- by (unfold update_all; cbn zeta; case_if; reflexivity). destruct (0 <=? tag_compare t _) in E; now injection E as <-. }
      split; [|split]; [assumption|lia|assumption].
    - case_if; [discriminate|]. injection E as <-. cbn. split; [|split]; [assumption|lia|assumption].
    - destruct (update_port_known _ _ _ _ E) as [-> _]. split; [|split]; [assumption|lia|assumption].
    - destruct (nth_error (ports s) i); [|discriminate]. destruct (update_port_known _ _ _ _ E) as [-> _]. split; [|split]; [assumption|lia|assumption].
    - destruct (update_port_known _ _ _ _ E) as [-> _]. split; [|split]; [assumption|lia|assumption].
    - assert (cur s' = cur s) as ->. { destruct dec eqn:D; rewrite <- ?D in *; [|now injection E as <-]. now destruct (update_port_known _ _ _ _ E) as [-> _]. }
      split; [|split]; [assumption|lia|assumption].
    - assert (cur s' = cur s) as ->. { unfold gone in E. destruct dec eqn:D; rewrite <- ?D in *; [|now injection E as <-]. now destruct (gone_from_known _ _ _ _ _ E) as [-> _]. }
      split; [|split]; [assumption|lia|assumption].
    - injection E as <-. cbn. unfold room in Hr. split; [|split]; [apply Ho|lia|apply Ho]. }
  assert (Each : forall i a b, known_at s i = Some a -> effect s o i a b -> tag_le a b /\ tag_ok b /\
     (tmicro b + n < UINT_MAX \/ (b = FOREVER_TAG /\ (dec = false \/ exists f, src s i = Some f /\ ~ In f r)))).
  { intros i a b Ha Eb. destruct (Hk i a Ha) as (Oa & Ra).
    assert (Same : (tmicro a + n < UINT_MAX \/ (a = FOREVER_TAG /\ (dec = false \/ exists f, src s i = Some f /\ ~ In f r)))).
    { destruct Ra as [Ra|(-> & [Ra|(f & F1 & F2)])]; [left; lia|right; split; [reflexivity|now left]|].
      right. split; [reflexivity|]. right. exists f. split; [exact F1|]. intros K. apply F2. apply in_or_app. now right. }
    destruct Eb as [->|Eb]; [split; [apply tag_le_refl|split; [exact Oa|exact Same]]|].
    assert (Upd : forall t, tag_ok t -> room (n + 1) t -> b = absorb (later t (cur s)) a -> tag_le a b /\ tag_ok b /\
        (tmicro b + n < UINT_MAX \/ (b = FOREVER_TAG /\ (dec = false \/ exists f, src s i = Some f /\ ~ In f r)))).
    { intros t Ht Hroom ->. unfold room in Hroom.
      assert (Ol : tag_ok (later t (cur s))) by now apply later_ok.
      assert (Rl : tmicro (later t (cur s)) + (n + 1) < UINT_MAX) by (destruct (later_micro t (cur s)) as [-> | ->]; lia).
      destruct Ra as [Ra|(-> & Rg)].
      - destruct (absorb_micro (later t (cur s)) a n Oa Ol Hn Ra Rl) as [O M]. split; [apply absorb_le; [exact Oa|lia]|]. split; [exact O|now left].
      - rewrite absorb_forever; [|exact Ol|].
        + split; [apply tag_le_refl|]. split; [exact Oa|exact Same].
        + destruct (Z.lt_ge_cases (ttime (later t (cur s))) FOREVER); [now left|]. right. split; [|lia]. destruct Ol as [Ol _]. tag_consts. unfold in_int64, FOREVER in *. lia. }
    destruct o; cbn [op_ok op_room] in *; try contradiction.
    - subst b. split; [apply later_le|]. split; [now apply later_ok|].
      unfold later. case_if; [exact Same|]. destruct Hr as [Hr|[Hr ->]]; [left; unfold room in Hr; lia|right; split; [reflexivity|now left]].
    - destruct Eb as [_ Eb]. now apply Upd with t.
    - destruct Eb as (<- & p & Hp & Eb).
      assert (Kp : known p = a) by (unfold known_at in Ha; rewrite Hp in Ha; now injection Ha).
      unfold actual_tag in Eb. destruct (dec && (tag_compare t (cur s) <=? 0)) eqn:T; [|now apply Upd with t].
      set (c1 := mkTag (ttime (cur s)) ((tmicro (cur s) + 1) mod two32)) in *.
      assert (Oc1 : tag_ok c1) by now apply bump_ok.
      assert (Mc1 : tmicro c1 = tmicro (cur s) + 1). { unfold c1. cbn [tmicro]. apply Z.mod_small. tag_consts; lia. }
      rewrite Kp in Eb.
      assert (Lc1 : later c1 (cur s) = c1). { unfold later. assert (tag_le (cur s) c1) as L by (unfold tag_le; rewrite Mc1; cbn; lia). apply cmp_lt0_false in L. now rewrite L. }
      destruct (tag_compare c1 a <=? 0) eqn:Q.
      + apply cmp_le0 in Q. destruct Ra as [Ra|(-> & Rg)].
        * set (a1 := mkTag (ttime a) ((tmicro a + 1) mod two32)) in *.
          assert (Ma1 : tmicro a1 = tmicro a + 1). { unfold a1. cbn [tmicro]. apply Z.mod_small. tag_consts; lia. }
          assert (La1 : later a1 (cur s) = a1). { unfold later. assert (tag_le (cur s) a1) as L by (unfold tag_le in *; rewrite Mc1 in Q; rewrite Ma1; cbn in *; lia). apply cmp_lt0_false in L. now rewrite L. }
          rewrite La1 in Eb.
          assert (B : b = a1). { rewrite Eb. unfold absorb. assert (tag_lt a a1) as L by (unfold tag_lt; rewrite Ma1; cbn; lia).
            assert ((tag_compare a1 a <? 0) = false) as -> by (apply cmp_lt0_false; now apply tag_lt_le).
            destruct (tag_compare a1 a =? 0) eqn:Z; [|reflexivity]. apply cmp_eq0 in Z. rewrite Z in L. now apply tag_lt_irrefl in L. }
          rewrite B. split; [unfold tag_le; rewrite Ma1; cbn; lia|]. split; [now apply bump_ok|]. left. lia.
        * rewrite absorb_forever in Eb; [subst b; split; [apply tag_le_refl|]; split; [exact Oa|exact Same]| |].
          -- apply later_ok; [now apply bump_ok|exact Hc].
          -- unfold later. case_if; [now left|]. right. cbn [ttime tmicro FOREVER_TAG FOREVER_MICROSTEP]. split; [reflexivity|]. vm_compute. reflexivity.
      + apply cmp_le0_false in Q. rewrite Lc1 in Eb.
        assert (B : b = c1). { rewrite Eb. unfold absorb. assert ((tag_compare c1 a <? 0) = false) as -> by (apply cmp_lt0_false; now apply tag_lt_le).
          destruct (tag_compare c1 a =? 0) eqn:Z; [|reflexivity]. apply cmp_eq0 in Z. rewrite Z in Q. now apply tag_lt_irrefl in Q. }
        rewrite B. split; [now apply tag_lt_le|]. split; [exact Oc1|]. left. lia.
    - destruct Eb as [_ Eb]. now apply Upd with t.
    - destruct Eb as (_ & _ & Eb). apply Upd with (cur s); [exact Hc|exact Hcm|exact Eb].
    - destruct Eb as (D & Hf & Eb).
      assert (Lf : later FOREVER_TAG (cur s) = FOREVER_TAG). { unfold later. assert (tag_le (cur s) FOREVER_TAG) as L by now apply tag_forever_greatest. apply cmp_lt0_false in L. now rewrite L. }
      rewrite Lf in Eb.
      destruct Ra as [Ra|(-> & [Rg|(f' & F1 & F2)])].
      + assert (L : tag_lt a FOREVER_TAG) by (tag_consts; lia).
        assert (B : b = FOREVER_TAG). { rewrite Eb. unfold absorb. assert ((tag_compare FOREVER_TAG a <? 0) = false) as -> by (apply cmp_lt0_false; now apply tag_lt_le).
          destruct (tag_compare FOREVER_TAG a =? 0) eqn:Z; [|reflexivity]. apply cmp_eq0 in Z. rewrite Z in L. now apply tag_lt_irrefl in L. }
        rewrite B. split; [now apply tag_lt_le|]. split; [tag_consts; lia|]. right. split; [reflexivity|]. right. exists f. split; [exact Hf|].
        cbn [gones flat_map app] in Hd. now inversion Hd.
      + congruence.
      + exfalso. unfold src in F1. rewrite Hf in F1. injection F1 as ->. apply F2. cbn. now left. }
  split.
  - split; [apply Cur|]. split; [apply Cur|]. split; [apply Cur|]. intros i b Hb.
    destruct (known_at s i) as [a|] eqn:Ha.
    + destruct (step_effect _ _ _ _ _ E Ha) as (b' & Hb' & Eb). assert (b' = b) by congruence. subst b'.
      destruct (Each i a b Ha Eb) as (_ & Ob & R). split; [exact Ob|]. rewrite (step_src _ _ _ E i). exact R.
    + exfalso. pose proof (step_src _ _ _ E i) as X. unfold src, known_at in *.
      destruct (nth_error (ports s) i); [discriminate|]. destruct (nth_error (ports s') i); [discriminate|discriminate].
  - intros i a Ha. destruct (step_effect _ _ _ _ _ E Ha) as (b & Hb & Eb). exists b. split; [exact Hb|]. now destruct (Each i a b Ha Eb).
Qed.

Lemma room_weaken m n t : n <= m -> room m t -> room n t.
Proof. unfold room. lia. Qed.
Lemma op_room_weaken m n o : n <= m -> op_room dec m o -> op_room dec n o.
Proof. intros H. destruct o; cbn [op_room]; try tauto; try (now apply room_weaken). intros [K|K]; [left; now apply room_weaken with m|now right]. Qed.

Lemma gones_cons o l : gones (o :: l) = gones [o] ++ gones l.
Proof. unfold gones. cbn [flat_map]. now rewrite app_nil_r. Qed.

Lemma run_rinv l : forall s s', rinv (Z.of_nat (length l)) (gones l) s -> Forall (op_ok start) l ->
  Forall (op_room dec (Z.of_nat (length l))) l -> NoDup (gones l) -> run dec start s l = Some s' ->
  forall i a, known_at s i = Some a -> exists b, known_at s' i = Some b /\ tag_le a b.
Proof.
  induction l as [|o l IH]; intros s s' I Ho Hr Hd E i a Ha; cbn [run] in E.
  - injection E as <-. exists a. split; [exact Ha|apply tag_le_refl].
  - destruct (step dec start s o) as [s1|] eqn:S1; [|discriminate].
    inversion Ho as [|? ? Ho1 Ho2]; subst. inversion Hr as [|? ? Hr1 Hr2]; subst.
    assert (L : Z.of_nat (length (o :: l)) = Z.of_nat (length l) + 1) by (cbn [length]; lia).
    rewrite L in I, Hr1, Hr2. rewrite gones_cons in I, Hd.
    destruct (step_rinv (Z.of_nat (length l)) s o s1 (gones l)) as [I1 M1]; try assumption; [lia|].
    destruct (M1 i a Ha) as (b & Hb & Lb).
    destruct (IH s1 s' I1) with (i := i) (a := b) as (c & Hc & Lc); try assumption.
    + eapply Forall_impl; [|exact Hr2]. intros x. apply op_room_weaken. lia.
    + clear - Hd. induction (gones [o]) as [|x k IHk]; [exact Hd|]. apply IHk. now inversion Hd.
    + exists c. split; [exact Hc|]. now apply tag_le_trans with b.
Qed.

Lemma run_app l1 l2 : forall s, run dec start s (l1 ++ l2) = match run dec start s l1 with None => None | Some s1 => run dec start s1 l2 end.
Proof. induction l1 as [|o l1 IH]; intros s; [reflexivity|]. cbn [app run]. destruct (step dec start s o); [apply IH|reflexivity]. Qed.

Lemma run_rinv_prefix l1 l2 : forall s s1, rinv (Z.of_nat (length (l1 ++ l2))) (gones (l1 ++ l2)) s ->
  Forall (op_ok start) (l1 ++ l2) -> Forall (op_room dec (Z.of_nat (length (l1 ++ l2)))) (l1 ++ l2) -> NoDup (gones (l1 ++ l2)) ->
  run dec start s l1 = Some s1 ->
  rinv (Z.of_nat (length l2)) (gones l2) s1 /\ Forall (op_room dec (Z.of_nat (length l2))) l2 /\ NoDup (gones l2).
Proof.
  induction l1 as [|o l1 IH]; intros s s1 I Ho Hr Hd E; cbn [run app] in *.
  - injection E as <-. now split.
  - destruct (step dec start s o) as [s0|] eqn:S0; [|discriminate].
    inversion Ho as [|? ? Ho1 Ho2]; subst. inversion Hr as [|? ? Hr1 Hr2]; subst.
    assert (L : Z.of_nat (length (o :: l1 ++ l2)) = Z.of_nat (length (l1 ++ l2)) + 1) by (cbn [length]; lia).
    rewrite L in I, Hr1, Hr2. rewrite gones_cons in I, Hd.
    destruct (step_rinv (Z.of_nat (length (l1 ++ l2))) s o s0 (gones (l1 ++ l2))) as [I1 M1]; try assumption; [lia|].
    apply (IH s0 s1 I1); try assumption.
    + eapply Forall_impl; [|exact Hr2]. intros x. apply op_room_weaken. lia.
    + clear - Hd. induction (gones [o]) as [|x k IHk]; [exact Hd|]. apply IHk. now inversion Hd.
Qed.
End B.
