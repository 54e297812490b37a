(** Proofs about the minimum-delay table. *)
From Verif Require Import Base Tag TagSpec TagProofs Pqueue PqueueProofs RtiDelays RtiDelaysSpec.
From Coq Require Import Arith.
Open Scope Z_scope.

Lemma path_time_nonneg ds : 0 <= path_time ds.
Proof. induction ds as [|d ds IH]; cbn [path_time]; lia. Qed.
Lemma path_micro_bound ds : 0 <= path_micro ds <= Z.of_nat (length ds).
Proof. induction ds as [|d ds IH]; cbn [path_micro length]; [lia|]. destruct (_ && _); lia. Qed.

Lemma conn_delay_cases d : in_int64 d ->
  (d < 0 /\ conn_delay d = mkTag 0 0) \/ (d = 0 /\ conn_delay d = mkTag 0 1) \/ (0 < d < FOREVER /\ conn_delay d = mkTag d 0) \/ (d = FOREVER /\ conn_delay d = FOREVER_TAG).
Proof.
  intros Hd. unfold conn_delay, delay_tag, ZERO_TAG. cbn [ttime tmicro].
  destruct (Z_lt_dec d 0) as [K|K]; [left; split; [exact K|]; replace (d <? 0) with true by lia; rewrite orb_true_r; reflexivity|].
  destruct (Z.eq_dec d 0) as [->|K0]; [right; left; split; [reflexivity|]; reflexivity|].
  destruct (Z.eq_dec d FOREVER) as [->|K1]; [right; right; right; split; [reflexivity|]; reflexivity|].
  right; right; left. split; [tag_consts; lia|]. replace (0 =? NEVER) with false by reflexivity. replace (d <? 0) with false by lia. cbn [orb].
  replace (FOREVER - d <=? 0) with false by (tag_consts; lia). replace (d =? 0) with false by lia. reflexivity.
Qed.
Lemma conn_delay_ok d : in_int64 d -> delay_ok (conn_delay d).
Proof. intros H. destruct (conn_delay_cases d H) as [(K & ->)|[(K & ->)|[(K & ->)|(K & ->)]]]; tag_consts; lia. Qed.

Lemma tag_add_path d ds : in_int64 d -> path_time ds < FOREVER -> Z.of_nat (length ds) < UINT_MAX ->
  (path_time (d :: ds) < FOREVER /\ tag_add (conn_delay d) (path_delay ds) = path_delay (d :: ds)) \/
  (FOREVER <= path_time (d :: ds) /\ tag_add (conn_delay d) (path_delay ds) = FOREVER_TAG).
Proof.
  intros Hd Ht Hl. pose proof (path_time_nonneg ds) as Hn. pose proof (path_micro_bound ds) as Hm.
  assert (Hk : delay_ok (path_delay ds)) by (unfold path_delay; tag_consts; lia). pose proof (conn_delay_ok d Hd) as Hc.
  destruct (tag_add_cases (conn_delay d) (path_delay ds) (proj1 Hc) Hk) as [H|[H|[H|H]]]; unfold path_delay in *; cbn [ttime tmicro path_time path_micro] in *.
  - exfalso. destruct H as (H & _). destruct Hc as (_ & Hc). tag_consts; lia.
  - destruct H as (H1 & H2 & ->). right. split; [|reflexivity]. destruct (conn_delay_cases d Hd) as [(K & E)|[(K & E)|[(K & E)|(K & E)]]]; rewrite E in *; cbn [ttime tmicro FOREVER_TAG] in *; tag_consts; lia.
  - exfalso. destruct H as (H1 & H2 & H3 & _). destruct (conn_delay_cases d Hd) as [(K & E)|[(K & E)|[(K & E)|(K & E)]]]; rewrite E in *; cbn [ttime tmicro FOREVER_TAG] in *; destruct (0 <? path_time ds) eqn:C; tag_consts; lia.
  - destruct H as (H1 & H2 & H3 & ->). left. destruct (conn_delay_cases d Hd) as [(K & E)|[(K & E)|[(K & E)|(K & E)]]]; rewrite E in *; cbn [ttime tmicro FOREVER_TAG] in *; (split; [tag_consts; lia|]); apply tag_eq; cbn [ttime tmicro]; try (tag_consts; lia).
    + replace (d =? 0) with false by lia. cbn [andb]. destruct (0 <? path_time ds); lia.
    + subst d. cbn [Z.eqb andb]. destruct (0 <? path_time ds) eqn:C; destruct (path_time ds =? 0) eqn:C2; lia.
    + replace (d =? 0) with false by lia. cbn [andb]. destruct (0 <? path_time ds); lia.
Qed.

(** The second argument never exceeds the sum. *)
Lemma add_front_le d x : in_int64 d -> delay_ok x -> tag_le x (tag_add (conn_delay d) x).
Proof.
  intros Hd Hx. pose proof (conn_delay_ok d Hd) as Hc. destruct (tag_add_cases (conn_delay d) x (proj1 Hc) Hx) as [H|[H|[H|H]]].
  - exfalso. destruct H as (H & _). destruct Hc as (_ & Hc). tag_consts; lia.
  - destruct H as (_ & _ & ->). apply tag_forever_greatest, Hx.
  - destruct H as (_ & _ & _ & ->). apply tag_forever_greatest, Hx.
  - destruct H as (_ & _ & _ & ->). destruct Hc as (Hc1 & Hc2). destruct (0 <? ttime x) eqn:C; tag_consts; lia.
Qed.

Section Delays.
Variable tp : topo.
Variable connected : nat -> bool.
Variable stop : nat.
Hypothesis Htp : topo_ok tp.

Definition attained_at (x : tag) (v : nat) : Prop :=
  exists ds, upstream_path tp connected v ds stop /\ x = path_delay ds /\ path_time ds < FOREVER /\ (length ds <= tp_n tp)%nat.
Definition finiteb (x : tag) : bool := tag_compare x FOREVER_TAG <? 0.
Definition count_of (f : nat -> tag) : nat := length (filter (fun i => finiteb (f i)) (seq 0 (tp_n tp))).

Record good (s : dstate) : Prop := {
  g_att : forall v, d_path s v = FOREVER_TAG \/ attained_at (d_path s v) v;
  g_count : d_count s = count_of (d_path s);
  g_cycle : d_cycle s = true <-> d_path s stop <> FOREVER_TAG;
  g_zdc : d_zdc s = true <-> d_path s stop = ZERO_TAG }.

Lemma path_delay_ok ds : path_time ds < FOREVER -> (length ds <= tp_n tp)%nat -> delay_ok (path_delay ds) /\ finiteb (path_delay ds) = true.
Proof.
  intros Ht Hl. pose proof (path_time_nonneg ds). pose proof (path_micro_bound ds). destruct Htp as (_ & Hn).
  split; [unfold path_delay; tag_consts; lia|]. unfold finiteb. apply Z.ltb_lt. assert (K : tag_lt (path_delay ds) FOREVER_TAG) by (unfold path_delay; tag_consts; lia). apply tag_compare_lt in K. lia.
Qed.
Lemma good_ok s v : good s -> delay_ok (d_path s v).
Proof.
  intros G. destruct (g_att s G v) as [->|(ds & _ & -> & Ht & Hl)]; [tag_consts; lia|]. apply path_delay_ok; assumption.
Qed.
Lemma good_forever s v : good s -> (ttime (d_path s v) =? FOREVER) = true <-> finiteb (d_path s v) = false.
Proof.
  intros G. destruct (g_att s G v) as [E|(ds & _ & E & Ht & Hl)]; rewrite E; [split; reflexivity|].
  destruct (path_delay_ok ds Ht Hl) as (_ & F). rewrite F. split; [|discriminate]. cbn. intros K. apply Z.eqb_eq in K. lia.
Qed.

Lemma count_split (f : nat -> bool) u n : (u < n)%nat -> length (filter f (seq 0 n)) = (length (filter f (seq 0 u)) + (if f u then 1 else 0) + length (filter f (seq (S u) (n - S u))))%nat.
Proof.
  intros H. replace n with (u + (1 + (n - S u)))%nat at 1 by lia. rewrite seq_app, filter_app, app_length. cbn [Nat.add seq filter]. destruct (f u); cbn [length]; lia.
Qed.
Lemma count_upd f u x : (u < tp_n tp)%nat -> finiteb x = true ->
  count_of (upd f u x) = (if finiteb (f u) then count_of f else S (count_of f)).
Proof.
  intros Hu Hx. unfold count_of. rewrite !(count_split _ u (tp_n tp)) by exact Hu. rewrite upd_eq, Hx.
  assert (K : forall a k, (forall i, In i (seq a k) -> i <> u) -> length (filter (fun i => finiteb (upd f u x i)) (seq a k)) = length (filter (fun i => finiteb (f i)) (seq a k))).
  { intros a k Hd. f_equal. apply filter_ext_in. intros i Hi. rewrite upd_neq; [reflexivity|]. apply Hd in Hi. congruence. }
  rewrite !K; [destruct (finiteb (f u)); lia| |]; intros i Hi; apply in_seq in Hi; lia.
Qed.

Definition relaxed (s : dstate) (v : nat) : Prop :=
  connected v = true -> forall u d, In (u, d) (tp_up tp v) -> tag_le (d_path s u) (tag_add (conn_delay d) (if (v =? stop)%nat then ZERO_TAG else d_path s v)).
Definition below (s s' : dstate) : Prop := forall v, tag_le (d_path s' v) (d_path s v).

Lemma below_refl s : below s s. Proof. intros v. apply tag_le_refl. Qed.
Lemma below_trans s1 s2 s3 : below s1 s2 -> below s2 s3 -> below s1 s3.
Proof. intros A B v. eapply tag_le_trans; [apply B|apply A]. Qed.

(** The state of a call: the nodes on the recursion stack, the path that led here. *)
Record call (st : list nat) (inter : option nat) (so_far : tag) (ds : list Z) (s : dstate) : Prop := {
  c_good : good s;
  c_nodup : NoDup st;
  c_range : forall v, In v st -> (v < tp_n tp)%nat /\ v <> stop;
  c_len : length ds = length st;
  c_far : so_far = path_delay ds;
  c_time : path_time ds < FOREVER;
  c_le : forall v, In v st -> tag_le (d_path s v) so_far;
  c_path : match inter with None => st = [] /\ ds = [] | Some i => (exists r, st = i :: r) /\ upstream_path tp connected i ds stop /\ d_path s i = so_far end;
  c_relaxed : forall v, ~ In v st -> v <> stop -> relaxed s v }.
Definition result (st : list nat) (inter : option nat) (s s' : dstate) : Prop :=
  good s' /\ below s s' /\ (forall v, In v st -> d_path s' v = d_path s v) /\
  (forall v, ~ In v (tl st) -> v <> stop -> relaxed s' v) /\ (inter = None -> relaxed s' stop).

Lemma stop_range : forall st, NoDup st -> (forall v, In v st -> (v < tp_n tp)%nat /\ v <> stop) -> (stop < tp_n tp)%nat -> (S (length st) <= tp_n tp)%nat.
Proof.
  intros st Hd Hr Hs. assert (K : NoDup (stop :: st)) by (constructor; [intros K; apply Hr in K; tauto|exact Hd]).
  assert (I : incl (stop :: st) (seq 0 (tp_n tp))) by (intros v [<-|Hv]; apply in_seq; [lia|apply Hr in Hv; lia]).
  apply (NoDup_incl_length K) in I. rewrite seq_length in I. exact I.
Qed.

Hypothesis Hstop : (stop < tp_n tp)%nat.

(** One relaxation step towards [u]. *)
Lemma relax_good s u d ds count cyc zdc : good s -> (exists v, In (u, d) (tp_up tp v) /\ connected v = true /\ ((v = stop /\ ds = []) \/ upstream_path tp connected v ds stop)) ->
  path_time ds < FOREVER -> (S (length ds) <= tp_n tp)%nat -> tag_lt (tag_add (conn_delay d) (path_delay ds)) (d_path s u) ->
  count = (if ttime (d_path s u) =? FOREVER then S (d_count s) else d_count s) ->
  (if (u =? stop)%nat then cyc = true /\ zdc = ((tag_compare (tag_add (conn_delay d) (path_delay ds)) ZERO_TAG =? 0) && (d <? 0)) else cyc = d_cycle s /\ zdc = d_zdc s) ->
  good (mkD (upd (d_path s) u (tag_add (conn_delay d) (path_delay ds))) count zdc cyc) /\ attained_at (tag_add (conn_delay d) (path_delay ds)) u /\
  finiteb (tag_add (conn_delay d) (path_delay ds)) = true.
Proof.
  intros G (v & Hin & Hc & Hv) Ht Hl Hlt -> Hf. destruct Htp as (Hr & Hn). destruct (Hr _ _ _ Hin) as (Hu & Hd).
  assert (Ne : tag_add (conn_delay d) (path_delay ds) <> FOREVER_TAG).
  { intros E. rewrite E in Hlt. destruct (good_ok s u G) as (Ho & _). apply tag_forever_greatest in Ho. apply (tag_lt_irrefl FOREVER_TAG). eapply tag_lt_le_trans; eassumption. }
  destruct (tag_add_path d ds Hd Ht ltac:(lia)) as [(Ht2 & E)|(_ & E)]; [|contradiction].
  assert (P : upstream_path tp connected u (d :: ds) stop).
  { destruct Hv as [(-> & ->)|Hv]; [apply path_one; assumption|eapply path_step; eassumption]. }
  assert (A : attained_at (tag_add (conn_delay d) (path_delay ds)) u) by (exists (d :: ds); rewrite E; auto).
  assert (Fi : finiteb (tag_add (conn_delay d) (path_delay ds)) = true) by (rewrite E; apply path_delay_ok; [exact Ht2|exact Hl]).
  split; [|split; assumption]. constructor; cbn [d_path d_count d_zdc d_cycle].
  - intros w. destruct (Nat.eq_dec w u) as [->|nw]; [rewrite upd_eq; right; exact A|rewrite upd_neq by congruence; apply (g_att s G)].
  - rewrite count_upd by assumption. rewrite (g_count s G). destruct (finiteb (d_path s u)) eqn:F.
    + destruct (ttime (d_path s u) =? FOREVER) eqn:C; [|reflexivity]. apply (good_forever s u G) in C. congruence.
    + apply (good_forever s u G) in F. rewrite F. reflexivity.
  - destruct (Nat.eqb_spec u stop) as [->|nu].
    + destruct Hf as (-> & _). rewrite upd_eq. split; [intros _; exact Ne|reflexivity].
    + destruct Hf as (-> & _). rewrite upd_neq by congruence. apply (g_cycle s G).
  - destruct (Nat.eqb_spec u stop) as [->|nu].
    + destruct Hf as (_ & ->). rewrite upd_eq. rewrite andb_true_iff, Z.eqb_eq, tag_compare_eq. split; [tauto|]. intros K. split; [exact K|].
      rewrite E in K. unfold path_delay, ZERO_TAG in K. injection K as K1 K2. cbn [path_time path_micro] in K1, K2. pose proof (path_time_nonneg ds). pose proof (path_micro_bound ds).
      destruct (d =? 0) eqn:C; [|lia]. replace (path_time ds =? 0) with true in K2 by lia. cbn in K2. lia.
    + destruct Hf as (_ & ->). rewrite upd_neq by congruence. apply (g_zdc s G).
Qed.

Lemma relaxed_upd s s' u v : below s s' -> (forall w, w <> u -> d_path s' w = d_path s w) -> v <> u -> relaxed s v -> relaxed s' v.
Proof.
  intros B E Hv R Hc w d Hin. eapply tag_le_trans; [apply B|]. rewrite (E v Hv). apply R; assumption.
Qed.


Lemma call_next st inter so_far ds s s' : call st inter so_far ds s -> good s' -> (forall v, In v st -> d_path s' v = d_path s v) ->
  (forall v, ~ In v st -> v <> stop -> relaxed s' v) -> call st inter so_far ds s'.
Proof.
  intros C G E R. destruct C as [c1 c2 c3 c4 c5 c6 c7 c8 c9]. constructor; try assumption.
  - intros v Hv. rewrite E by exact Hv. apply c7, Hv.
  - destruct inter as [i|]; [|exact c8]. destruct c8 as ((r & ->) & P & F). split; [eauto|]. split; [exact P|]. rewrite E by (now left). exact F.
Qed.

Lemma loop_ok rec node so_far ds st inter :
  node = match inter with None => stop | Some i => i end -> connected node = true ->
  (forall u ds' s, call (u :: st) (Some u) (d_path s u) ds' s -> exists s', rec u s = Some s' /\ result (u :: st) (Some u) s s') ->
  forall l s, incl l (tp_up tp node) -> call st inter so_far ds s ->
  exists s', relax_loop rec stop so_far l s = Some s' /\ good s' /\ below s s' /\ (forall v, In v st -> d_path s' v = d_path s v) /\
  (forall v, ~ In v st -> v <> stop -> relaxed s' v) /\ (forall u d, In (u, d) l -> tag_le (d_path s' u) (tag_add (conn_delay d) so_far)).
Proof.
  intros Hnode Hcon Hrec. induction l as [|(u & d) l IH]; intros s Hincl C.
  - exists s. cbn [relax_loop]. split; [reflexivity|]. split; [apply C|]. split; [apply below_refl|]. split; [auto|]. split; [apply C|]. intros u d [].
  - cbn [relax_loop]. set (x := tag_add (conn_delay d) so_far).
    assert (Hin : In (u, d) (tp_up tp node)) by (apply Hincl; now left). assert (Hincl' : incl l (tp_up tp node)) by (intros z Hz; apply Hincl; now right).
    destruct (proj1 Htp _ _ _ Hin) as (Hu & Hd).
    assert (Hlen : (S (length st) <= tp_n tp)%nat) by (apply stop_range; [apply C|apply C|exact Hstop]).
    assert (Hso : delay_ok so_far) by (rewrite (c_far _ _ _ _ _ C); apply path_delay_ok; [apply C|rewrite (c_len _ _ _ _ _ C); lia]).
    assert (Finish : forall s2, good s2 -> below s s2 -> (forall v, In v st -> d_path s2 v = d_path s v) -> (forall v, ~ In v st -> v <> stop -> relaxed s2 v) -> tag_le (d_path s2 u) x ->
      exists s', relax_loop rec stop so_far l s2 = Some s' /\ good s' /\ below s s' /\ (forall v, In v st -> d_path s' v = d_path s v) /\
      (forall v, ~ In v st -> v <> stop -> relaxed s' v) /\ (forall u0 d0, In (u0, d0) ((u, d) :: l) -> tag_le (d_path s' u0) (tag_add (conn_delay d0) so_far))).
    { intros s2 G2 B2 E2 R2 L2. destruct (IH s2 Hincl') as (s' & Hs' & G' & B' & E' & R' & L'); [eapply call_next; eassumption|].
      exists s'. split; [exact Hs'|]. split; [exact G'|]. split; [eapply below_trans; eassumption|]. split; [intros v Hv; rewrite E', E2 by exact Hv; reflexivity|]. split; [exact R'|].
      intros u0 d0 [K|K]; [injection K as <- <-; eapply tag_le_trans; [apply B'|exact L2]|apply L', K]. }
    destruct (tag_compare x (d_path s u) <? 0) eqn:Cmp.
    + apply Z.ltb_lt in Cmp. assert (Hlt : tag_lt x (d_path s u)) by (apply tag_compare_lt; destruct (tag_compare_range x (d_path s u)) as [K|[K|K]]; lia).
      assert (Nst : ~ In u st). { intros K. apply (tag_lt_irrefl so_far). eapply tag_le_lt_trans; [apply (add_front_le d so_far Hd Hso)|]. eapply tag_lt_le_trans; [exact Hlt|apply C, K]. }
      assert (Vex : exists v, In (u, d) (tp_up tp v) /\ connected v = true /\ ((v = stop /\ ds = []) \/ upstream_path tp connected v ds stop)).
      { exists node. split; [exact Hin|]. split; [exact Hcon|]. pose proof (c_path _ _ _ _ _ C) as K. destruct inter as [i|]; subst node; [right; apply K|left; split; [reflexivity|apply K]]. }
      set (count := if ttime (d_path s u) =? FOREVER then S (d_count s) else d_count s).
      assert (Xe : x = tag_add (conn_delay d) (path_delay ds)) by (unfold x; rewrite (c_far _ _ _ _ _ C); reflexivity).
      assert (Bl : forall c z y, below s (mkD (upd (d_path s) u x) c z y)).
      { intros c z y v. cbn. destruct (Nat.eq_dec v u) as [->|nv]; [rewrite upd_eq; apply tag_lt_le, Hlt|rewrite upd_neq by congruence; apply tag_le_refl]. }
      assert (Rx : forall c z y v, ~ In v st -> v <> stop -> v <> u -> relaxed (mkD (upd (d_path s) u x) c z y) v).
      { intros c z y v Hv1 Hv2 Hv3. eapply relaxed_upd; [apply Bl| |exact Hv3|apply C; assumption]. intros w Hw. cbn. apply upd_neq. congruence. }
      destruct (Nat.eqb_spec stop u) as [Eu|Nu].
      * cbn [negb].
        assert (G2 : good (mkD (upd (d_path s) u x) count ((tag_compare x ZERO_TAG =? 0) && (d <? 0)) true)).
        { rewrite Xe. apply relax_good; [apply (c_good _ _ _ _ _ C)|exact Vex|apply (c_time _ _ _ _ _ C)|rewrite (c_len _ _ _ _ _ C); exact Hlen|rewrite <- Xe; exact Hlt|reflexivity|]. rewrite <- Eu, Nat.eqb_refl. split; reflexivity. }
        apply Finish; [exact G2|apply Bl| | |].
        -- intros v Hv. cbn. apply upd_neq. intros E. subst v. contradiction.
        -- intros v Hv1 Hv2. apply Rx; congruence || assumption.
        -- cbn. rewrite upd_eq. apply tag_le_refl.
      * cbn [negb]. set (s1 := mkD (upd (d_path s) u x) count (d_zdc s) (d_cycle s)).
        assert (G1 : good s1 /\ attained_at x u /\ finiteb x = true).
        { unfold s1. rewrite Xe. apply relax_good; [apply (c_good _ _ _ _ _ C)|exact Vex|apply (c_time _ _ _ _ _ C)|rewrite (c_len _ _ _ _ _ C); exact Hlen|rewrite <- Xe; exact Hlt|reflexivity|]. replace (u =? stop)%nat with false by (symmetry; apply Nat.eqb_neq; congruence). split; reflexivity. }
        destruct G1 as (G1 & A1 & F1).
        assert (Px : d_path s1 u = x) by (cbn; apply upd_eq).
        assert (C1 : call (u :: st) (Some u) (d_path s1 u) (d :: ds) s1).
        { assert (Tp : path_time (d :: ds) < FOREVER /\ x = path_delay (d :: ds)).
          { destruct (tag_add_path d ds Hd (c_time _ _ _ _ _ C)) as [(T & E)|(T & E)]; [rewrite (c_len _ _ _ _ _ C); destruct Htp; lia|rewrite Xe; auto|].
            exfalso. rewrite Xe, E in F1. discriminate. }
          destruct Tp as (T1 & T2). constructor.
          - exact G1.
          - constructor; [exact Nst|apply C].
          - intros v [<-|Hv]; [split; [exact Hu|congruence]|apply C, Hv].
          - cbn [length]. rewrite (c_len _ _ _ _ _ C). reflexivity.
          - rewrite Px. exact T2.
          - exact T1.
          - intros v [<-|Hv]; [apply tag_le_refl|]. rewrite Px. cbn. rewrite upd_neq by (intros ->; contradiction). eapply tag_le_trans; [apply C, Hv|apply add_front_le; assumption].
          - split; [eauto|]. split; [|reflexivity]. destruct Vex as (v & V1 & V2 & [(V3 & V4)|V3]); [subst v ds; apply path_one; assumption|eapply path_step; eassumption].
          - intros v Hv1 Hv2. apply Rx; [intros K; apply Hv1; now right|exact Hv2|intros ->; apply Hv1; now left]. }
        destruct (Hrec u (d :: ds) s1 C1) as (s2 & -> & G2 & B2 & E2 & R2 & _).
        apply Finish; [exact G2|eapply below_trans; [apply (Bl count (d_zdc s) (d_cycle s))|exact B2]| | |].
        -- intros v Hv. rewrite E2 by (now right). cbn. apply upd_neq. intros K. subst v. contradiction.
        -- intros v Hv1 Hv2. apply R2; assumption.
        -- eapply tag_le_trans; [apply B2|]. rewrite Px. apply tag_le_refl.
    + apply Finish; [apply C|apply below_refl|auto|apply C|]. apply tag_not_lt. intros K. apply tag_compare_lt in K. lia.
Qed.

Lemma update_ok : forall fuel st inter so_far ds s, (S (tp_n tp) <= fuel + length st)%nat ->
  so_far = match inter with None => ZERO_TAG | Some i => d_path s i end -> call st inter so_far ds s ->
  exists s', update_delays fuel tp connected stop inter s = Some s' /\ result st inter s s'.
Proof.
  induction fuel as [|fuel IH]; intros st inter so_far ds s Hf Hso C.
  - exfalso. pose proof (stop_range st (c_nodup _ _ _ _ _ C) (c_range _ _ _ _ _ C) Hstop). lia.
  - cbn [update_delays]. set (node := match inter with None => stop | Some i => i end).
    rewrite <- Hso. destruct (connected node) eqn:Hc.
    + destruct (loop_ok (fun u s => update_delays fuel tp connected stop (Some u) s) node so_far ds st inter eq_refl Hc) with (l := tp_up tp node) (s := s) as (s' & -> & G & B & E & R & L); [|apply incl_refl|exact C|].
      { intros u ds' s0 C0. eapply IH; [|reflexivity|exact C0]. cbn [length]. lia. }
      exists s'. split; [reflexivity|]. split; [exact G|]. split; [exact B|]. split; [exact E|].
      assert (Rn : relaxed s' node).
      { intros _ u d Hin. replace (if (node =? stop)%nat then ZERO_TAG else d_path s' node) with so_far; [apply L, Hin|].
        pose proof (c_path _ _ _ _ _ C) as P. unfold node. destruct inter as [i|]; [|rewrite Nat.eqb_refl; exact Hso]. destruct P as ((r & Er) & _ & P).
        destruct (Nat.eqb_spec i stop) as [K|K]; [exfalso; apply (c_range _ _ _ _ _ C i); [rewrite Er; now left|exact K]|]. rewrite E by (rewrite Er; now left). symmetry. exact P. }
      split.
      * intros v Hv1 Hv2. destruct (in_dec Nat.eq_dec v st) as [K|K]; [|apply R; assumption]. destruct inter as [i|]; [|destruct (c_path _ _ _ _ _ C) as (-> & _); destruct K].
        destruct (c_path _ _ _ _ _ C) as ((r & Er) & _). subst st. destruct K as [<-|K]; [exact Rn|contradiction].
      * intros ->. exact Rn.
    + exists s. split; [reflexivity|]. split; [apply C|]. split; [apply below_refl|]. split; [auto|]. split.
      * intros v Hv1 Hv2. destruct (in_dec Nat.eq_dec v st) as [K|K]; [|apply C; assumption]. destruct inter as [i|]; [|destruct (c_path _ _ _ _ _ C) as (-> & _); destruct K].
        destruct (c_path _ _ _ _ _ C) as ((r & Er) & _). subst st. destruct K as [<-|K]; [|contradiction]. intros Hc'. unfold node in Hc. congruence.
      * intros -> Hc'. unfold node in Hc. congruence.
Qed.

Definition start_delays : dstate := mkD (fun _ => FOREVER_TAG) 0 false false.
Lemma start_call : call [] None ZERO_TAG [] start_delays.
Proof.
  constructor; [|constructor|intros v []|reflexivity|reflexivity|reflexivity|intros v []|split; reflexivity|intros v _ Nv Hc u d Hin].
  - constructor; cbn; [now left| | |].
    + unfold count_of. cbn [d_path]. induction (seq 0 (tp_n tp)) as [|a l IH]; [reflexivity|]. cbn [filter]. exact IH.
    + split; [discriminate|congruence].
    + split; [discriminate|intros K; discriminate].
  - apply Nat.eqb_neq in Nv. rewrite Nv. cbn. apply add_front_le; [apply Htp in Hin; tauto|tag_consts; lia].
Qed.

Lemma path_delay_mono d ds ds' : tag_le (path_delay ds') (path_delay ds) -> tag_le (path_delay (d :: ds')) (path_delay (d :: ds)).
Proof.
  unfold path_delay, tag_le, tag_lt. cbn [path_time path_micro ttime tmicro]. intros H.
  destruct (Z.eqb_spec (path_time ds') 0), (Z.eqb_spec (path_time ds) 0), (d =? 0); cbn [andb]; lia.
Qed.
Lemma path_le_time ds ds' : tag_le (path_delay ds') (path_delay ds) -> path_time ds' <= path_time ds.
Proof. unfold path_delay, tag_le, tag_lt. cbn [ttime tmicro]. lia. Qed.

(** The fixed point: every path bounds the stored delay. *)
Lemma relaxed_path s : good s -> (forall v, relaxed s v) -> forall k ds, upstream_path tp connected k ds stop -> path_time ds < FOREVER -> tag_le (d_path s k) (path_delay ds).
Proof.
  intros G R k ds P. remember stop as e eqn:Ee in P.
  assert (Step : forall v u d ds, connected v = true -> In (u, d) (tp_up tp v) -> path_time (d :: ds) < FOREVER ->
    tag_le (if (v =? stop)%nat then ZERO_TAG else d_path s v) (path_delay ds) -> tag_le (d_path s u) (path_delay (d :: ds))).
  { clear k ds P. intros v u d ds Hc Hin Ht Hle. specialize (R v Hc u d Hin). pose proof (path_time_nonneg ds) as Hn. destruct Htp as (Hr & Hnn). destruct (Hr _ _ _ Hin) as (Hu & Hd).
    assert (Hx : exists ds', (if (v =? stop)%nat then ZERO_TAG else d_path s v) = path_delay ds' /\ path_time ds' < FOREVER /\ (length ds' <= tp_n tp)%nat).
    { destruct (v =? stop)%nat; [exists []; split; [reflexivity|]; split; [reflexivity|cbn; lia]|].
      destruct (g_att s G v) as [E|(ds' & _ & E & Ht' & Hl)]; [|eauto]. exfalso. rewrite E in Hle. unfold path_delay, tag_le, tag_lt in Hle. cbn [path_time] in Ht. cbn in Hle. lia. }
    destruct Hx as (ds' & E & Ht' & Hl). rewrite E in R, Hle. eapply tag_le_trans; [exact R|].
    destruct (tag_add_path d ds' Hd Ht' ltac:(lia)) as [(_ & ->)|(T & _)]; [apply path_delay_mono, Hle|]. apply path_le_time in Hle. cbn [path_time] in *. lia. }
  induction P as [k d e Hin Hc|k d v ds e Hin Hc P IH]; intros Ht; subst e.
  - apply (Step stop); [exact Hc|exact Hin|exact Ht|]. rewrite Nat.eqb_refl. apply tag_le_refl.
  - apply (Step v); [exact Hc|exact Hin|exact Ht|]. cbn [path_time] in Ht.
    destruct (v =? stop)%nat; [|apply IH; [reflexivity|lia]]. pose proof (path_time_nonneg ds). pose proof (path_micro_bound ds). unfold path_delay, ZERO_TAG, tag_le, tag_lt. cbn [ttime tmicro]. lia.
Qed.

Lemma compute_ok : exists s, good s /\ (forall v, relaxed s v) /\
  compute_delays tp connected stop = Delays (map (fun i => (i, d_path s i)) (filter (fun i => finiteb (d_path s i)) (seq 0 (tp_n tp)))) (d_zdc s) (d_cycle s).
Proof.
  destruct (update_ok (S (tp_n tp)) [] None ZERO_TAG [] start_delays) as (s & E & G & _ & _ & R1 & R2); [cbn; lia|reflexivity|apply start_call|].
  exists s. split; [exact G|]. split; [intros v; destruct (Nat.eq_dec v stop) as [->|n]; [apply R2; reflexivity|apply R1; [intros []|exact n]]|].
  unfold compute_delays. change (mkD (fun _ => FOREVER_TAG) 0 false false) with start_delays. rewrite E.
  change (fun i => tag_compare (d_path s i) FOREVER_TAG <? 0) with (fun i => finiteb (d_path s i)).
  pose proof (g_count s G) as C. unfold count_of in C. replace (d_count s <? _)%nat with false; [reflexivity|]. symmetry. apply Nat.ltb_ge. rewrite C. lia.
Qed.

Lemma path_source_range k ds : upstream_path tp connected k ds stop -> (k < tp_n tp)%nat.
Proof. intros P. destruct P as [d e H _|d v ds e H _ _]; apply Htp in H; tauto. Qed.
End Delays.
