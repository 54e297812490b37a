From Verif Require Import Base Hashset HashsetSpec.
From Coq Require Import Permutation Znumtheory Zpow_facts.

Lemma updZ_eq {A} (f : Z -> A) i x : updZ f i x i = x.
Proof. unfold updZ. rewrite Z.eqb_refl; reflexivity. Qed.
Lemma updZ_neq {A} (f : Z -> A) i j x : j <> i -> updZ f i x j = f j.
Proof. unfold updZ. intros H. destruct (Z.eqb_spec j i); [contradiction|reflexivity]. Qed.

(** ** Probe sequence *)
Definition pr (b x : Z) (j : nat) : Z := (73 * x + Z.of_nat j * 5009) mod 2 ^ b.

Lemma land_mask b y : 0 <= b <= 30 -> Z.land (2 ^ b - 1) (y mod two64) = y mod 2 ^ b.
Proof.
  intros Hb. replace (2 ^ b - 1) with (Z.ones b) by (rewrite Z.ones_equiv; lia).
  rewrite Z.land_comm, Z.land_ones by lia.
  symmetry. apply Zmod_div_mod.
  - apply Z.pow_pos_nonneg; lia.
  - unfold two64; lia.
  - change two64 with (2 ^ 64). exists (2 ^ (64 - b)). rewrite <- Z.pow_add_r by lia. f_equal; lia.
Qed.
Lemma first_pr b x : 0 <= b <= 30 -> hs_first (2 ^ b - 1) x = pr b x 0.
Proof. intros Hb. unfold hs_first, pr, prime_1. rewrite land_mask by assumption. f_equal. lia. Qed.
Lemma next_pr b x j : 0 <= b <= 30 -> hs_next (2 ^ b - 1) (pr b x j) = pr b x (S j).
Proof.
  intros Hb. unfold hs_next, pr, Hashset.prime_2. rewrite land_mask by assumption.
  rewrite Zplus_mod_idemp_l. f_equal. lia.
Qed.
Lemma pr_range b x j : 0 <= b -> 0 <= pr b x j < 2 ^ b.
Proof. intros Hb. unfold pr. apply Z.mod_pos_bound. apply Z.pow_pos_nonneg; lia. Qed.

Lemma pr_cover b x a : 0 <= b -> 0 <= a < 2 ^ b -> exists j, (j < Z.to_nat (2 ^ b))%nat /\ pr b x j = a.
Proof.
  intros Hb Ha. assert (Hp : 0 < 2 ^ b) by (apply Z.pow_pos_nonneg; lia).
  assert (Hrel : rel_prime 5009 (2 ^ b)).
  { apply rel_prime_Zpower_r; [lia|]. apply Zgcd_1_rel_prime. reflexivity. }
  destruct (rel_prime_bezout _ _ Hrel) as [u v Huv].
  exists (Z.to_nat (((a - 73 * x) * u) mod 2 ^ b)).
  pose proof (Z.mod_pos_bound ((a - 73 * x) * u) (2 ^ b) Hp) as Hm.
  split; [lia|]. unfold pr. rewrite Z2Nat.id by lia.
  rewrite <- Zplus_mod_idemp_r, Zmult_mod_idemp_l, Zplus_mod_idemp_r.
  replace (73 * x + (a - 73 * x) * u * 5009) with (a + (- (a - 73 * x) * v) * 2 ^ b).
  - rewrite Z_mod_plus_full. apply Z.mod_small; lia.
  - replace ((a - 73 * x) * u * 5009) with ((a - 73 * x) * (u * 5009)) by ring.
    replace (u * 5009) with (1 - v * 2 ^ b) by lia. ring.
Qed.

Lemma least_below (P : nat -> Prop) (Pd : forall n, {P n} + {~ P n}) : forall n, P n ->
  exists m, (m <= n)%nat /\ P m /\ forall k, (k < m)%nat -> ~ P k.
Proof.
  intros n. induction n as [n IH] using lt_wf_ind. intros Hn.
  assert (D : (exists k, (k < n)%nat /\ P k) \/ forall k, (k < n)%nat -> ~ P k).
  { clear IH Hn. induction n as [|n [(k & Hk & Pk)|Hno]].
    - right; intros; lia.
    - left; exists k; split; [lia|exact Pk].
    - destruct (Pd n) as [Hp|Hp]; [left; exists n; split; [lia|exact Hp]|].
      right. intros k Hk. destruct (Nat.eq_dec k n) as [->|]; [exact Hp|apply Hno; lia]. }
  destruct D as [(k & Hk & Pk)|Hno].
  - destruct (IH k Hk Pk) as (m & H1 & H2 & H3). exists m; repeat split; [lia|exact H2|exact H3].
  - exists n; repeat split; [lia|exact Hn|exact Hno].
Qed.

(** ** The table as a list *)
Definition idxs (n : nat) : list Z := map Z.of_nat (seq 0 n).
Definition tbl (f : Z -> Z) (n : nat) : list Z := map f (idxs n).
Definition live (v : Z) : bool := negb (v =? 0) && negb (v =? 1).

Lemma tbl_split f n i : 0 <= i < Z.of_nat n ->
  exists l1 l2, tbl f n = l1 ++ f i :: l2 /\ forall v, tbl (updZ f i v) n = l1 ++ v :: l2.
Proof.
  intros Hi. exists (map f (map Z.of_nat (seq 0 (Z.to_nat i)))),
    (map f (map Z.of_nat (seq (S (Z.to_nat i)) (n - Z.to_nat i - 1)))).
  assert (E : idxs n = map Z.of_nat (seq 0 (Z.to_nat i)) ++ i :: map Z.of_nat (seq (S (Z.to_nat i)) (n - Z.to_nat i - 1))).
  { unfold idxs. replace n with (Z.to_nat i + S (n - Z.to_nat i - 1))%nat at 1 by lia.
    rewrite seq_app, map_app. cbn [seq map]. rewrite Nat.add_0_l, Z2Nat.id by lia. reflexivity. }
  split.
  - unfold tbl. rewrite E, map_app. reflexivity.
  - intros v. unfold tbl. rewrite E, map_app. cbn [map]. rewrite updZ_eq. f_equal; [|f_equal].
    + apply map_ext_in. intros a Ha. apply in_map_iff in Ha as (k & <- & Hk). apply in_seq in Hk.
      apply updZ_neq; lia.
    + apply map_ext_in. intros a Ha. apply in_map_iff in Ha as (k & <- & Hk). apply in_seq in Hk.
      apply updZ_neq; lia.
Qed.
Lemma in_tbl f n v : In v (tbl f n) <-> exists i, 0 <= i < Z.of_nat n /\ f i = v.
Proof.
  unfold tbl, idxs. rewrite in_map_iff. split.
  - intros (i & E & Hi). apply in_map_iff in Hi as (k & <- & Hk). apply in_seq in Hk.
    exists (Z.of_nat k). split; [lia|exact E].
  - intros (i & Hi & E). exists i. split; [exact E|]. apply in_map_iff. exists (Z.to_nat i).
    split; [lia|]. apply in_seq; lia.
Qed.
Lemma tbl_len f n : length (tbl f n) = n.
Proof. unfold tbl, idxs. rewrite !map_length, seq_length. reflexivity. Qed.

Definition cnt (p : Z -> bool) (l : list Z) : Z := Z.of_nat (length (filter p l)).
Lemma cnt_nil p : cnt p [] = 0. Proof. reflexivity. Qed.
Lemma cnt_cons p x l : cnt p (x :: l) = (if p x then 1 else 0) + cnt p l.
Proof. unfold cnt; cbn [filter]. destruct (p x); cbn [length]; lia. Qed.
Lemma cnt_app p l1 l2 : cnt p (l1 ++ l2) = cnt p l1 + cnt p l2.
Proof. unfold cnt. rewrite filter_app, app_length. lia. Qed.
Lemma cnt_nonneg p l : 0 <= cnt p l. Proof. unfold cnt; lia. Qed.
Lemma cnt_total l : cnt live l + cnt (Z.eqb 1) l + cnt (Z.eqb 0) l = Z.of_nat (length l).
Proof.
  induction l as [|x l IH]; [reflexivity|]. rewrite !cnt_cons. cbn [length]. unfold live in *.
  destruct (Z.eqb_spec x 0), (Z.eqb_spec x 1), (Z.eqb_spec 1 x), (Z.eqb_spec 0 x); cbn [negb andb]; lia.
Qed.

(** ** Invariant *)
Record hinv (s : hset) (L : list Z) : Prop := {
  hi_b : 0 <= h_nbits s <= 30;
  hi_cap : h_cap s = 2 ^ h_nbits s;
  hi_mask : h_mask s = 2 ^ h_nbits s - 1;
  hi_L : Permutation L (filter live (tbl (h_items s) (Z.to_nat (h_cap s))));
  hi_nd : NoDup L;
  hi_n : h_nitems s = cnt live (tbl (h_items s) (Z.to_nat (h_cap s)));
  hi_d : h_ndel s = cnt (Z.eqb 1) (tbl (h_items s) (Z.to_nat (h_cap s)));
  hi_probe : forall i, 0 <= i < h_cap s -> live (h_items s i) = true ->
     exists j, pr (h_nbits s) (h_items s i) j = i /\
       forall k, (k < j)%nat -> h_items s (pr (h_nbits s) (h_items s i) k) <> 0
}.

Lemma live_spec v : live v = true <-> v <> 0 /\ v <> 1.
Proof. unfold live. destruct (Z.eqb_spec v 0), (Z.eqb_spec v 1); cbn; intuition congruence. Qed.

Lemma hinv_cap_pos s L : hinv s L -> 1 <= h_cap s <= 2 ^ 30.
Proof.
  intros H. rewrite (hi_cap _ _ H). pose proof (hi_b _ _ H). split.
  - assert (0 < 2 ^ h_nbits s) by (apply Z.pow_pos_nonneg; lia). lia.
  - apply Z.pow_le_mono_r; lia.
Qed.

Lemma hs_get_ok s i : 0 <= i < h_cap s -> hs_get s i = Ok (h_items s i).
Proof. intros H. unfold hs_get. destruct (Z.leb_spec 0 i), (Z.ltb_spec i (h_cap s)); try lia. reflexivity. Qed.

Lemma first_prh s L x : hinv s L -> hs_first (h_mask s) x = pr (h_nbits s) x 0.
Proof. intros H. rewrite (hi_mask _ _ H). apply first_pr. apply (hi_b _ _ H). Qed.

(** Where the probe for [x] stops. *)
Lemma probe_stop s L x : hinv s L -> h_nitems s + h_ndel s < h_cap s ->
  exists j, (j < Z.to_nat (h_cap s))%nat /\
    (h_items s (pr (h_nbits s) x j) = 0 \/ h_items s (pr (h_nbits s) x j) = x) /\
    forall k, (k < j)%nat -> h_items s (pr (h_nbits s) x k) <> 0 /\ h_items s (pr (h_nbits s) x k) <> x.
Proof.
  intros H Hlt. pose proof (hinv_cap_pos _ _ H) as Hc. pose proof (hi_b _ _ H) as Hb.
  pose proof (cnt_total (tbl (h_items s) (Z.to_nat (h_cap s)))) as Ht. rewrite tbl_len in Ht.
  rewrite <- (hi_n _ _ H), <- (hi_d _ _ H) in Ht.
  assert (Hz : In 0 (tbl (h_items s) (Z.to_nat (h_cap s)))).
  { destruct (filter (Z.eqb 0) (tbl (h_items s) (Z.to_nat (h_cap s)))) as [|y l] eqn:E.
    - unfold cnt in Ht at 1. rewrite E in Ht. cbn [length] in Ht. lia.
    - assert (Hy : In y (y :: l)) by (left; reflexivity). rewrite <- E in Hy.
      apply filter_In in Hy as [Hy Hy0]. apply Z.eqb_eq in Hy0. subst y. exact Hy. }
  apply in_tbl in Hz as (i & Hi & Ei).
  destruct (pr_cover (h_nbits s) x i) as (j & Hj & Ej); [lia|rewrite <- (hi_cap _ _ H); lia|].
  destruct (least_below (fun j => h_items s (pr (h_nbits s) x j) = 0 \/ h_items s (pr (h_nbits s) x j) = x)) with (n := j)
    as (m & Hm & Pm & Hno).
  - intros n. destruct (Z.eq_dec (h_items s (pr (h_nbits s) x n)) 0); [left; left; assumption|].
    destruct (Z.eq_dec (h_items s (pr (h_nbits s) x n)) x); [left; right; assumption|].
    right; intuition congruence.
  - left. rewrite Ej. exact Ei.
  - exists m. rewrite <- (hi_cap _ _ H) in Hj. split; [lia|]. split; [exact Pm|].
    intros k Hk. specialize (Hno k Hk). intuition congruence.
Qed.

(** A live item occurs in the table iff the probe stops on it. *)
Lemma probe_member s L x j : hinv s L -> x <> 0 -> x <> 1 ->
  (forall k, (k < j)%nat -> h_items s (pr (h_nbits s) x k) <> 0 /\ h_items s (pr (h_nbits s) x k) <> x) ->
  h_items s (pr (h_nbits s) x j) = 0 -> ~ In x L.
Proof.
  intros H Hx0 Hx1 Hno Hz Hin.
  apply (Permutation_in _ (hi_L _ _ H)) in Hin. apply filter_In in Hin as [Hin _].
  apply in_tbl in Hin as (i & Hi & Ei). rewrite Z2Nat.id in Hi by (pose proof (hinv_cap_pos _ _ H); lia).
  destruct (hi_probe _ _ H i Hi) as (m & Em & Hm); [rewrite Ei; apply live_spec; split; assumption|].
  rewrite Ei in Em, Hm. destruct (lt_eq_lt_dec m j) as [[Hl| ->]|Hg].
  - destruct (Hno m Hl) as [_ Hne]. rewrite Em in Hne. congruence.
  - rewrite Em, Ei in Hz. congruence.
  - exact (Hm j Hg Hz).
Qed.

Lemma member_of_slot s L i : hinv s L -> 0 <= i < h_cap s -> live (h_items s i) = true -> In (h_items s i) L.
Proof.
  intros H Hi Hl. apply (Permutation_in _ (Permutation_sym (hi_L _ _ H))). apply filter_In. split; [|exact Hl].
  apply in_tbl. exists i. split; [rewrite Z2Nat.id; lia|reflexivity].
Qed.

Section Search.
Variables (s : hset) (L : list Z) (x : Z) (j0 : nat).
Hypothesis H : hinv s L.
Hypothesis Hno : forall k, (k < j0)%nat -> h_items s (pr (h_nbits s) x k) <> 0 /\ h_items s (pr (h_nbits s) x k) <> x.

Lemma pr_in k : 0 <= pr (h_nbits s) x k < h_cap s.
Proof. rewrite (hi_cap _ _ H). apply pr_range. apply (hi_b _ _ H). Qed.

Lemma find_stop : forall fuel j, (j <= j0)%nat -> (j0 - j < fuel)%nat ->
  (h_items s (pr (h_nbits s) x j0) = 0 \/ h_items s (pr (h_nbits s) x j0) = x) -> x <> 0 ->
  hs_find fuel s x (pr (h_nbits s) x j) =
    Ok (if h_items s (pr (h_nbits s) x j0) =? x then Some (pr (h_nbits s) x j0) else None).
Proof.
  induction fuel as [|fuel IH]; intros j Hj Hf Hstop Hx; [lia|].
  cbn [hs_find]. rewrite hs_get_ok by apply pr_in. cbn [bind].
  destruct (Nat.eq_dec j j0) as [->|Hne].
  - destruct (Z.eqb_spec (h_items s (pr (h_nbits s) x j0)) 0) as [E|E].
    + rewrite E. destruct (Z.eqb_spec 0 x); [congruence|reflexivity].
    + destruct Hstop as [Hs|Hs]; [contradiction|]. rewrite Hs, Z.eqb_refl. reflexivity.
  - destruct (Hno j ltac:(lia)) as [H0 H1].
    destruct (Z.eqb_spec (h_items s (pr (h_nbits s) x j)) 0); [contradiction|].
    destruct (Z.eqb_spec (h_items s (pr (h_nbits s) x j)) x); [contradiction|].
    rewrite (hi_mask _ _ H), next_pr by apply (hi_b _ _ H). apply IH; try lia; assumption.
Qed.

Lemma find_stop_zero : forall fuel j, (j <= j0)%nat -> (j0 - j < fuel)%nat ->
  h_items s (pr (h_nbits s) x j0) = 0 -> hs_find fuel s x (pr (h_nbits s) x j) = Ok None.
Proof.
  induction fuel as [|fuel IH]; intros j Hj Hf Hstop; [lia|].
  cbn [hs_find]. rewrite hs_get_ok by apply pr_in. cbn [bind].
  destruct (Nat.eq_dec j j0) as [->|Hne].
  - rewrite Hstop. reflexivity.
  - destruct (Hno j ltac:(lia)) as [H0 H1].
    destruct (Z.eqb_spec (h_items s (pr (h_nbits s) x j)) 0); [contradiction|].
    destruct (Z.eqb_spec (h_items s (pr (h_nbits s) x j)) x); [contradiction|].
    rewrite (hi_mask _ _ H), next_pr by apply (hi_b _ _ H). apply IH; try lia; assumption.
Qed.

Definition avail_ok (a : Z) : Prop := a < 0 \/ exists k, (k < j0)%nat /\ a = pr (h_nbits s) x k /\ h_items s a = 1.

Lemma add_stop : forall fuel j avail, (j <= j0)%nat -> (j0 - j < fuel)%nat -> x <> 0 -> avail_ok avail ->
  (h_items s (pr (h_nbits s) x j0) = 0 \/ h_items s (pr (h_nbits s) x j0) = x) ->
  exists r, hs_add_search fuel s x (pr (h_nbits s) x j) avail = Ok r /\
    (h_items s (pr (h_nbits s) x j0) = x -> r = None) /\
    (h_items s (pr (h_nbits s) x j0) = 0 -> exists a, r = Some (pr (h_nbits s) x j0, a) /\ avail_ok a).
Proof.
  induction fuel as [|fuel IH]; intros j avail Hj Hf Hx Ha Hstop; [lia|].
  cbn [hs_add_search]. rewrite hs_get_ok by apply pr_in. cbn [bind].
  destruct (Nat.eq_dec j j0) as [->|Hne].
  - destruct (Z.eqb_spec (h_items s (pr (h_nbits s) x j0)) 0) as [E|E].
    + eexists; split; [reflexivity|]. split; [congruence|]. intros _. exists avail. split; [reflexivity|exact Ha].
    + destruct Hstop as [Hs|Hs]; [contradiction|]. rewrite Hs, Z.eqb_refl.
      eexists; split; [reflexivity|]. split; [reflexivity|congruence].
  - destruct (Hno j ltac:(lia)) as [H0 H1].
    destruct (Z.eqb_spec (h_items s (pr (h_nbits s) x j)) 0); [contradiction|].
    destruct (Z.eqb_spec (h_items s (pr (h_nbits s) x j)) x); [contradiction|].
    rewrite (hi_mask _ _ H), next_pr by apply (hi_b _ _ H). apply IH; try lia; try assumption.
    destruct (Z.eqb_spec (h_items s (pr (h_nbits s) x j)) 1) as [E1|E1]; cbn [andb]; [|exact Ha].
    destruct (Z.ltb_spec avail 0); [|exact Ha].
    right. exists j. split; [lia|]. split; [reflexivity|exact E1].
Qed.
End Search.

Lemma filter_live_mid l1 v l2 : filter live (l1 ++ v :: l2) =
  filter live l1 ++ (if live v then [v] else []) ++ filter live l2.
Proof. rewrite filter_app. cbn [filter]. destruct (live v); reflexivity. Qed.

(** Writing a new item into an empty or deleted slot. *)
Lemma hinv_store s L x a d : hinv s L -> x <> 0 -> x <> 1 -> ~ In x L -> 0 <= a < h_cap s ->
  (h_items s a = 0 /\ d = 0 \/ h_items s a = 1 /\ d = 1) ->
  (exists j, pr (h_nbits s) x j = a /\ forall k, (k < j)%nat -> h_items s (pr (h_nbits s) x k) <> 0) ->
  hinv (mkHset (h_nbits s) (h_mask s) (h_cap s) (updZ (h_items s) a x) (h_nitems s + 1) (h_ndel s - d)) (x :: L).
Proof.
  intros H Hx0 Hx1 Hni Ha Hd (j & Ej & Hj).
  destruct (tbl_split (h_items s) (Z.to_nat (h_cap s)) a) as (l1 & l2 & E & Eu); [lia|].
  assert (Hlx : live x = true) by (apply live_spec; split; assumption).
  assert (Hla : live (h_items s a) = false) by (unfold live; destruct Hd as [[-> _]|[-> _]]; reflexivity).
  constructor; cbn [h_nbits h_cap h_mask h_items h_nitems h_ndel]; try apply H.
  - rewrite Eu, filter_live_mid, Hlx. cbn [app]. pose proof (hi_L _ _ H) as HL.
    rewrite E, filter_live_mid, Hla in HL. cbn [app] in HL. rewrite HL. apply Permutation_middle.
  - constructor; [exact Hni|apply H].
  - rewrite Eu, (hi_n _ _ H), E, !cnt_app, !cnt_cons, Hlx, Hla. lia.
  - rewrite Eu, (hi_d _ _ H), E, !cnt_app, !cnt_cons.
    destruct (Z.eqb_spec 1 x); [congruence|]. destruct Hd as [[-> ->]|[-> ->]]; cbn [Z.eqb Pos.eqb]; lia.
  - intros i Hi Hli. destruct (Z.eq_dec i a) as [->|Hne].
    + rewrite updZ_eq. exists j. split; [exact Ej|]. intros k Hk. unfold updZ.
      destruct (Z.eqb_spec (pr (h_nbits s) x k) a); [exact Hx0|exact (Hj k Hk)].
    + rewrite updZ_neq in * by exact Hne. destruct (hi_probe _ _ H i Hi Hli) as (m & Em & Hm).
      exists m. split; [exact Em|]. intros k Hk. unfold updZ.
      destruct (Z.eqb_spec (pr (h_nbits s) (h_items s i) k) a); [exact Hx0|exact (Hm k Hk)].
Qed.

Lemma mem_spec x l : mem x l = true <-> In x l.
Proof. unfold mem. rewrite existsb_exists. split; [intros (y & Hy & E); apply Z.eqb_eq in E; subst; exact Hy|intros Hi; exists x; split; [exact Hi|apply Z.eqb_refl]]. Qed.
Lemma mem_false x l : mem x l = false <-> ~ In x l.
Proof. rewrite <- mem_spec. destruct (mem x l); intuition congruence. Qed.

Lemma add_member_ok s L x : hinv s L -> h_nitems s + h_ndel s < h_cap s ->
  exists s', hs_add_member s x = Ok (s', snd (hspec L (HAdd x))) /\ hinv s' (fst (hspec L (HAdd x))) /\
    h_nbits s' = h_nbits s /\ h_nitems s' + h_ndel s' <= h_nitems s + h_ndel s + 1 /\ h_ndel s' <= h_ndel s.
Proof.
  intros H Hlt. unfold hs_add_member. cbn [hspec].
  destruct (Z.eqb_spec x 0) as [E0|E0]; cbn [orb].
  { exists s. cbn [fst snd]. repeat split; try lia; apply H. }
  destruct (Z.eqb_spec x 1) as [E1|E1].
  { exists s. cbn [fst snd]. repeat split; try lia; apply H. }
  destruct (probe_stop s L x H Hlt) as (j & Hj & Hstop & Hno).
  rewrite (first_prh _ _ _ H).
  destruct (add_stop s L x j H Hno (hs_fuel s) 0 (-1)) as (r & Er & Hr1 & Hr2);
    try lia; try (unfold hs_fuel; lia); try assumption; [left; lia|].
  rewrite Er. cbn [bind]. clear Er. destruct Hstop as [Hz|Hx].
  - destruct (Hr2 Hz) as (a & -> & Ha).
    assert (Hni : ~ In x L) by (eapply probe_member; eassumption).
    apply mem_false in Hni as Hm. rewrite Hm. cbn [fst snd].
    destruct (Z.leb_spec 0 a) as [Hpos|Hneg].
    + destruct Ha as [Ha|(k & Hk & Ea & E1a)]; [lia|].
      eexists; split; [reflexivity|]. split; [|cbn [h_nbits h_nitems h_ndel]; repeat split; lia].
      apply hinv_store; try assumption.
      * rewrite Ea. eapply pr_in; eassumption.
      * right; split; [exact E1a|reflexivity].
      * exists k. split; [symmetry; exact Ea|]. intros k' Hk'. apply Hno; lia.
    + eexists; split; [reflexivity|]. split; [|cbn [h_nbits h_nitems h_ndel]; repeat split; lia].
      replace (h_ndel s) with (h_ndel s - 0) by lia.
      apply hinv_store; try assumption.
      * eapply pr_in; eassumption.
      * left; split; [exact Hz|reflexivity].
      * exists j. split; [reflexivity|]. intros k' Hk'. apply Hno; lia.
  - rewrite (Hr1 Hx). assert (Hin : In x L).
    { rewrite <- Hx. apply member_of_slot; [exact H|eapply pr_in; eassumption|].
      rewrite Hx. apply live_spec; split; assumption. }
    apply mem_spec in Hin as Hm. rewrite Hm. cbn [fst snd].
    exists s. repeat split; try lia; apply H.
Qed.

Lemma find_ok s L x : hinv s L -> h_nitems s + h_ndel s < h_cap s -> x <> 1 ->
  exists r, hs_find (hs_fuel s) s x (hs_first (h_mask s) x) = Ok r /\
    match r with
    | Some i => In x L /\ 0 <= i < h_cap s /\ h_items s i = x /\ x <> 0
    | None => ~ In x L
    end.
Proof.
  intros H Hlt Hx1. rewrite (first_prh _ _ _ H).
  destruct (probe_stop s L x H Hlt) as (j & Hj & Hstop & Hno).
  destruct (Z.eq_dec x 0) as [->|Hx0].
  - exists None. split.
    + eapply find_stop_zero; try eassumption; [lia|unfold hs_fuel; lia|]. destruct Hstop; assumption.
    + intros Hin. apply (Permutation_in _ (hi_L _ _ H)) in Hin. apply filter_In in Hin as [_ Hl]. discriminate.
  - eexists. split.
    + eapply find_stop; try eassumption; [lia|unfold hs_fuel; lia].
    + destruct (Z.eqb_spec (h_items s (pr (h_nbits s) x j)) x) as [E|E].
      * split; [|split; [eapply pr_in; eassumption|split; assumption]].
        rewrite <- E. apply member_of_slot; [exact H|eapply pr_in; eassumption|]. rewrite E. apply live_spec; split; assumption.
      * destruct Hstop as [Hz|Hx]; [|contradiction]. eapply probe_member; eassumption.
Qed.

Lemma is_member_ok s L x : hinv s L -> h_nitems s + h_ndel s < h_cap s -> x <> 1 ->
  hs_is_member s x = Ok (if mem x L then 1 else 0).
Proof.
  intros H Hlt Hx1. unfold hs_is_member. destruct (find_ok s L x H Hlt Hx1) as (r & E & Hr).
  rewrite E. cbn [bind]. destruct r as [i|].
  - destruct Hr as [Hin _]. apply mem_spec in Hin. rewrite Hin. reflexivity.
  - apply mem_false in Hr. rewrite Hr. reflexivity.
Qed.

Lemma filter_neq_app x l1 l2 : ~ In x l1 -> ~ In x l2 ->
  filter (fun y => negb (y =? x)) (l1 ++ x :: l2) = l1 ++ l2.
Proof.
  intros H1 H2.
  assert (K : forall l, ~ In x l -> filter (fun y => negb (y =? x)) l = l).
  { induction l as [|y l IH]; intros Hn; [reflexivity|]. cbn [filter].
    destruct (Z.eqb_spec y x) as [->|]; [exfalso; apply Hn; left; reflexivity|]. cbn [negb].
    rewrite IH; [reflexivity|]. intros Hi; apply Hn; right; exact Hi. }
  rewrite filter_app. cbn [filter]. rewrite Z.eqb_refl. cbn [negb]. rewrite !K by assumption. reflexivity.
Qed.
Lemma filter_perm (p : Z -> bool) l l' : Permutation l l' -> Permutation (filter p l) (filter p l').
Proof.
  induction 1; cbn [filter]; try constructor.
  - destruct (p x); [constructor|]; assumption.
  - destruct (p x), (p y); try apply perm_swap; reflexivity.
  - eapply Permutation_trans; eassumption.
Qed.

Lemma remove_ok s L x : hinv s L -> h_nitems s + h_ndel s < h_cap s -> x <> 1 ->
  exists s', hs_remove s x = Ok (s', snd (hspec L (HRemove x))) /\ hinv s' (fst (hspec L (HRemove x))) /\
    h_nbits s' = h_nbits s /\ h_cap s' = h_cap s /\ h_nitems s' + h_ndel s' = h_nitems s + h_ndel s.
Proof.
  intros H Hlt Hx1. unfold hs_remove. destruct (find_ok s L x H Hlt Hx1) as (r & E & Hr).
  rewrite E. cbn [bind hspec]. destruct r as [i|].
  2:{ apply mem_false in Hr. rewrite Hr. exists s. cbn [fst snd]. repeat split; apply H. }
  destruct Hr as (Hin & Hi & Ei & Hx0). apply mem_spec in Hin as Hm. rewrite Hm. cbn [fst snd].
  destruct (tbl_split (h_items s) (Z.to_nat (h_cap s)) i) as (l1 & l2 & Et & Eu); [lia|].
  assert (Hlx : live x = true) by (apply live_spec; split; assumption).
  pose proof (hi_n _ _ H) as Hn. rewrite Et, cnt_app, cnt_cons, Ei, Hlx in Hn.
  pose proof (cnt_nonneg live l1). pose proof (cnt_nonneg live l2).
  pose proof (hinv_cap_pos _ _ H).
  assert (Hd0 : 0 <= h_ndel s) by (rewrite (hi_d _ _ H); apply cnt_nonneg).
  assert (Hmod : (h_nitems s - 1) mod two64 = h_nitems s - 1) by (apply Z.mod_small; unfold two64; lia).
  eexists; split; [reflexivity|]. cbn [h_nbits h_cap h_nitems h_ndel]. rewrite Hmod.
  split; [|repeat split; lia].
  pose proof (hi_L _ _ H) as HL. rewrite Et, filter_live_mid, Ei, Hlx in HL. cbn [app] in HL.
  constructor; cbn [h_nbits h_cap h_mask h_items h_nitems h_ndel]; try apply H.
  - rewrite Eu, filter_live_mid. cbn [live Z.eqb Pos.eqb negb andb app].
    apply filter_perm with (p := fun y => negb (y =? x)) in HL as HL'. rewrite HL'.
    assert (Hnd : NoDup (filter live l1 ++ x :: filter live l2)) by (eapply Permutation_NoDup; [exact HL|apply H]).
    apply NoDup_remove in Hnd as [_ Hnx]. rewrite in_app_iff in Hnx.
    rewrite filter_neq_app by tauto. reflexivity.
  - apply NoDup_filter. apply H.
  - rewrite Eu, cnt_app, cnt_cons. cbn [live Z.eqb Pos.eqb negb andb]. lia.
  - rewrite Eu, (hi_d _ _ H), Et, !cnt_app, !cnt_cons, Ei. destruct (Z.eqb_spec 1 x); [congruence|]. rewrite Z.eqb_refl. lia.
  - intros k Hk Hl. destruct (Z.eq_dec k i) as [->|Hne]; [rewrite updZ_eq in Hl; discriminate|].
    rewrite updZ_neq in * by exact Hne. destruct (hi_probe _ _ H k Hk Hl) as (m & Em & Hmm).
    exists m. split; [exact Em|]. intros q Hq. unfold updZ.
    destruct (Z.eqb_spec (pr (h_nbits s) (h_items s k) q) i); [discriminate|exact (Hmm q Hq)].
Qed.

(** ** Floats *)
Lemma to_float_ge n b : 0 <= b -> 2 ^ b <= n -> 2 ^ b <= to_float n.
Proof.
  intros Hb Hn. assert (Hp : 0 < 2 ^ b) by (apply Z.pow_pos_nonneg; lia).
  unfold to_float. destruct (Z.leb_spec (Z.log2 n - 23) 0) as [He|He]; [exact Hn|].
  set (e := Z.log2 n - 23) in *. set (g := 2 ^ e). assert (Hg : 0 < g) by (apply Z.pow_pos_nonneg; lia).
  pose proof (Z.log2_spec n ltac:(lia)) as [Hl _].
  assert (Hq : 2 ^ 23 <= n / g).
  { apply Z.div_le_lower_bound; [exact Hg|]. unfold g. rewrite <- Z.pow_add_r by lia.
    replace (e + 23) with (Z.log2 n) by (unfold e; lia). exact Hl. }
  assert (Hb2 : 2 ^ b <= 2 ^ Z.log2 n).
  { apply Z.pow_le_mono_r; [lia|]. rewrite <- (Z.log2_pow2 b) by lia. apply Z.log2_le_mono; exact Hn. }
  assert (Hm : 2 ^ Z.log2 n <= n / g * g).
  { replace (Z.log2 n) with (23 + e) by (unfold e; lia). rewrite Z.pow_add_r by lia. fold g. nia. }
  destruct (_ || _); nia.
Qed.
Lemma to_float_le n b : 0 <= n <= 2 ^ b -> 0 <= b -> to_float n <= 2 ^ b.
Proof.
  intros Hn Hb. assert (Hp : 0 < 2 ^ b) by (apply Z.pow_pos_nonneg; lia).
  unfold to_float. destruct (Z.leb_spec (Z.log2 n - 23) 0) as [He|He]; [lia|].
  set (e := Z.log2 n - 23) in *. set (g := 2 ^ e). assert (Hg : 0 < g) by (apply Z.pow_pos_nonneg; lia).
  assert (Hlb : Z.log2 n <= b) by (rewrite <- (Z.log2_pow2 b) by lia; apply Z.log2_le_mono; lia).
  assert (Hgb : 2 ^ b = 2 ^ (b - e) * g) by (unfold g; rewrite <- Z.pow_add_r by lia; f_equal; lia).
  set (m := 2 ^ (b - e)) in *. pose proof (Z.div_mod n g ltac:(lia)) as Hdm.
  pose proof (Z.mod_pos_bound n g Hg) as Hr.
  assert (Hq : n / g <= m) by nia.
  destruct (_ || _) eqn:E; [|nia].
  assert (0 < n mod g).
  { apply orb_prop in E as [E|E]; [lia|]. apply andb_prop in E as [E _]. lia. }
  assert (n / g < m) by nia. nia.
Qed.

Lemma no_rehash_lt n b : 0 <= b -> needs_rehash n (2 ^ b) = false -> n < 2 ^ b.
Proof.
  intros Hb H. unfold needs_rehash in H. apply Z.leb_gt in H.
  destruct (Z.lt_ge_cases n (2 ^ b)) as [|Hge]; [assumption|].
  pose proof (to_float_ge n b Hb Hge). assert (0 < 2 ^ b) by (apply Z.pow_pos_nonneg; lia). lia.
Qed.
Lemma half_no_rehash n b : 0 <= b -> 0 <= n <= 2 ^ b -> needs_rehash n (2 ^ (b + 1)) = false.
Proof.
  intros Hb H. unfold needs_rehash. apply Z.leb_gt.
  pose proof (to_float_le n b H Hb). rewrite Z.pow_add_r by lia.
  assert (0 < 2 ^ b) by (apply Z.pow_pos_nonneg; lia). lia.
Qed.

(** ** Rehash *)
Lemma hinv_empty b : 0 <= b <= 30 -> hinv (mkHset b (2 ^ b - 1) (2 ^ b) (fun _ => 0) 0 0) [].
Proof.
  intros Hb.
  assert (E : forall n p, p 0 = false -> filter p (tbl (fun _ => 0) n) = []).
  { intros n p Hp. unfold tbl. induction (idxs n) as [|a l IH]; [reflexivity|]. cbn [map filter]. rewrite Hp. exact IH. }
  constructor; cbn [h_nbits h_cap h_mask h_items h_nitems h_ndel]; try lia; try reflexivity.
  - rewrite E by reflexivity. constructor.
  - constructor.
  - unfold cnt. rewrite E by reflexivity. reflexivity.
  - unfold cnt. rewrite E by reflexivity. reflexivity.
  - intros i _ Hl. discriminate.
Qed.

Lemma reinsert_ok old : forall n ii s L, hinv s L -> h_nitems s + h_ndel s + Z.of_nat n < h_cap s ->
  exists s' L', hs_reinsert old ii n s = Ok s' /\ hinv s' L' /\ h_nbits s' = h_nbits s /\
    (forall x, In x L' <-> In x L \/ (live x = true /\ exists k, ii <= k < ii + Z.of_nat n /\ old k = x)) /\
    h_ndel s' <= h_ndel s.
Proof.
  induction n as [|n IH]; intros ii s L H Hlt; cbn [hs_reinsert].
  - exists s, L. split; [reflexivity|]. split; [exact H|]. split; [reflexivity|]. split; [|lia].
    intros x; split; [left; assumption|]. intros [Hl|(_ & k & Hk & _)]; [exact Hl|lia].
  - destruct (add_member_ok s L (old ii) H ltac:(lia)) as (s1 & E & H1 & Hb1 & Hc1 & Hd1).
    rewrite E. cbn [bind fst].
    assert (Hcap : h_cap s1 = h_cap s) by (rewrite (hi_cap _ _ H), (hi_cap _ _ H1), Hb1; reflexivity).
    destruct (IH (ii + 1) s1 _ H1 ltac:(lia)) as (s' & L' & E' & H' & Hb' & Hin & Hd').
    exists s', L'. split; [exact E'|]. split; [exact H'|]. split; [lia|]. split; [|lia].
    intros x. rewrite Hin. clear - Hin. cbn [hspec].
    assert (K : In x (fst (if (old ii =? 0) || (old ii =? 1) then (L, -1) else if mem (old ii) L then (L, 0) else (old ii :: L, 1)))
       <-> In x L \/ (live x = true /\ old ii = x)).
    { destruct (Z.eqb_spec (old ii) 0) as [E0|E0]; cbn [orb fst].
      { split; [left; assumption|]. intros [Hl|[Hl He]]; [exact Hl|]. apply live_spec in Hl. lia. }
      destruct (Z.eqb_spec (old ii) 1) as [E1|E1]; cbn [fst].
      { split; [left; assumption|]. intros [Hl|[Hl He]]; [exact Hl|]. apply live_spec in Hl. lia. }
      destruct (mem (old ii) L) eqn:Em; cbn [fst].
      - split; [left; assumption|]. intros [Hl|[Hl He]]; [exact Hl|]. apply mem_spec in Em. subst; exact Em.
      - split; [intros [He|Hl]; [right; split; [apply live_spec; lia|exact He]|left; exact Hl]|].
        intros [Hl|[_ He]]; [right; exact Hl|left; exact He]. }
    rewrite K. split.
    + intros [[Hl|[Hl He]]|(Hl & k & Hk & He)]; [left; exact Hl| |].
      * right; split; [exact Hl|]. exists ii; split; [lia|exact He].
      * right; split; [exact Hl|]. exists k; split; [lia|exact He].
    + intros [Hl|(Hl & k & Hk & He)]; [left; left; exact Hl|].
      destruct (Z.eq_dec k ii) as [->|]; [left; right; split; assumption|].
      right; split; [exact Hl|]. exists k; split; [lia|exact He].
Qed.

Lemma hinv_perm s L L' : hinv s L -> Permutation L' L -> hinv s L'.
Proof.
  intros H P. destruct H. constructor; try assumption.
  - rewrite P; assumption.
  - eapply Permutation_NoDup; [apply Permutation_sym; exact P|assumption].
Qed.

Lemma items_len s L : hinv s L -> h_nitems s = Z.of_nat (length L).
Proof. intros H. rewrite (hi_n _ _ H). unfold cnt. rewrite (Permutation_length (hi_L _ _ H)). reflexivity. Qed.

Definition hok (s : hset) (L : list Z) : Prop := hinv s L /\ needs_rehash (h_nitems s + h_ndel s) (h_cap s) = false.
Lemma hok_lt s L : hok s L -> h_nitems s + h_ndel s < h_cap s.
Proof. intros [H Hr]. rewrite (hi_cap _ _ H) in *. apply no_rehash_lt; [apply (hi_b _ _ H)|exact Hr]. Qed.

Lemma rehash_ok s L : hinv s L -> h_nitems s + h_ndel s <= h_cap s -> h_nitems s + h_ndel s <= 2 ^ 29 ->
  exists s', hs_maybe_rehash s = Ok s' /\ hok s' L /\ h_nitems s' + h_ndel s' <= h_nitems s + h_ndel s.
Proof.
  intros H Hle Hmax. unfold hs_maybe_rehash.
  pose proof (hi_b _ _ H) as Hb. pose proof (hinv_cap_pos _ _ H) as Hcp.
  destruct (needs_rehash _ _) eqn:Er.
  2:{ exists s. split; [reflexivity|]. split; [split; assumption|lia]. }
  assert (Hd0 : 0 <= h_ndel s) by (rewrite (hi_d _ _ H); apply cnt_nonneg).
  assert (Hn0 : 0 <= h_nitems s) by (rewrite (hi_n _ _ H); apply cnt_nonneg).
  assert (Hb30 : h_nbits s < 30).
  { destruct (Z.eq_dec (h_nbits s) 30) as [E|]; [|lia]. exfalso.
    rewrite (hi_cap _ _ H), E in Er. change (2 ^ 30) with (2 ^ (29 + 1)) in Er.
    rewrite half_no_rehash in Er; [discriminate|lia|lia]. }
  unfold shl1. destruct (Z.leb_spec 0 (h_nbits s + 1)); [|lia]. destruct (Z.leb_spec (h_nbits s + 1) 30); [|lia].
  cbn [andb bind].
  destruct (reinsert_ok (h_items s) (Z.to_nat (h_cap s)) 0 _ [] (hinv_empty (h_nbits s + 1) ltac:(lia))) as (s' & L' & E & H' & Hb' & Hin & Hd').
  { cbn [h_nitems h_ndel h_cap]. rewrite Z.pow_add_r by lia. rewrite (hi_cap _ _ H) in *. lia. }
  cbn [h_nbits h_ndel] in *.
  exists s'. split; [exact E|].
  assert (P : Permutation L L').
  { apply NoDup_Permutation; [apply H|apply H'|]. intros x. rewrite Hin. split.
    - intros Hx. right. apply (Permutation_in _ (hi_L _ _ H)) in Hx. apply filter_In in Hx as [Hx Hl].
      split; [exact Hl|]. apply in_tbl in Hx as (i & Hi & Ei). exists i. split; [lia|exact Ei].
    - intros [[]|(Hl & k & Hk & Ek)]. rewrite <- Ek. apply member_of_slot; [exact H|lia|rewrite Ek; exact Hl]. }
  assert (H'' : hinv s' L) by (eapply hinv_perm; eassumption).
  assert (Hd'' : h_ndel s' = 0) by (pose proof (cnt_nonneg (Z.eqb 1) (tbl (h_items s') (Z.to_nat (h_cap s')))); rewrite <- (hi_d _ _ H') in *; lia).
  assert (Hn' : h_nitems s' = h_nitems s) by (rewrite (items_len _ _ H''), (items_len _ _ H); reflexivity).
  split; [|lia]. split; [exact H''|].
  rewrite (hi_cap _ _ H''), Hb', Hd'', Hn'. apply half_no_rehash; [lia|]. rewrite (hi_cap _ _ H) in *. lia.
Qed.

Lemma add_ok s L x : hok s L -> h_nitems s + h_ndel s < 2 ^ 29 ->
  exists s', hs_add s x = Ok (s', snd (hspec L (HAdd x))) /\ hok s' (fst (hspec L (HAdd x))) /\
    h_nitems s' + h_ndel s' <= h_nitems s + h_ndel s + 1.
Proof.
  intros H Hmax. unfold hs_add. pose proof (hok_lt _ _ H) as Hlt. destruct H as [H _].
  destruct (add_member_ok s L x H Hlt) as (s1 & E & H1 & Hb1 & Hc1 & _).
  rewrite E. cbn [bind fst snd].
  assert (Hcap : h_cap s1 = h_cap s) by (rewrite (hi_cap _ _ H), (hi_cap _ _ H1), Hb1; reflexivity).
  destruct (rehash_ok s1 _ H1 ltac:(lia) ltac:(lia)) as (s2 & E2 & H2 & Hc2).
  rewrite E2. cbn [bind]. exists s2. split; [reflexivity|]. split; [exact H2|lia].
Qed.

Lemma hs_step_ok s L o : hok s L -> hpre o -> h_nitems s + h_ndel s < 2 ^ 29 ->
  exists s', hs_step s o = Ok (s', snd (hspec L o)) /\ hok s' (fst (hspec L o)) /\
    h_nitems s' + h_ndel s' <= h_nitems s + h_ndel s + (if is_add o then 1 else 0).
Proof.
  intros H Hp Hmax. pose proof (hok_lt _ _ H) as Hlt. destruct o as [x|x|x|]; cbn [hs_step is_add].
  - apply add_ok; assumption.
  - destruct H as [H Hr]. destruct (remove_ok s L x H Hlt ltac:(apply Hp)) as (s' & E & H' & Hb & Hc & Ht).
    exists s'. rewrite E. split; [reflexivity|]. split; [split; [exact H'|]|lia]. rewrite Ht, Hc. exact Hr.
  - destruct H as [H Hr]. rewrite (is_member_ok s L x H Hlt ltac:(apply Hp)). cbn [bind].
    exists s. split; [reflexivity|]. split; [split; assumption|lia].
  - exists s. cbn [hspec fst snd]. rewrite <- (items_len s L (proj1 H)). split; [reflexivity|]. split; [exact H|lia].
Qed.

Lemma adds_cons o os : adds (o :: os) = (if is_add o then 1 else 0) + adds os.
Proof. unfold adds; cbn [filter]. destruct (is_add o); cbn [length]; lia. Qed.

Lemma hs_run_ok : forall ops s L, hok s L -> Forall hpre ops -> h_nitems s + h_ndel s + adds ops < 2 ^ 29 ->
  exists s', hs_run s ops = Ok (s', snd (hspec_run L ops)) /\ hok s' (fst (hspec_run L ops)).
Proof.
  induction ops as [|o os IH]; intros s L H Hf Hm.
  - exists s. split; [reflexivity|exact H].
  - apply Forall_cons_iff in Hf as [Ho Hf]. rewrite adds_cons in Hm.
    assert (0 <= adds os) by (unfold adds; lia).
    destruct (hs_step_ok s L o H Ho ltac:(destruct (is_add o); lia)) as (s1 & E & H1 & Ht).
    destruct (IH s1 _ H1 Hf ltac:(lia)) as (s2 & E2 & H2).
    exists s2. cbn [hs_run]. rewrite E. cbn [bind fst snd]. rewrite E2. split; [reflexivity|exact H2].
Qed.

Lemma create_ok b : 0 <= b <= 30 -> exists s, hs_create b = Ok s /\ hok s [] /\ h_nitems s + h_ndel s = 0.
Proof.
  intros Hb. unfold hs_create, shl1. destruct (Z.leb_spec 0 b); [|lia]. destruct (Z.leb_spec b 30); [|lia].
  cbn [andb bind]. eexists; split; [reflexivity|]. split; [|reflexivity].
  split; [apply hinv_empty; exact Hb|]. cbn [h_nitems h_ndel h_cap]. unfold needs_rehash. apply Z.leb_gt.
  assert (0 < 2 ^ b) by (apply Z.pow_pos_nonneg; lia). change (to_float (0 + 0)) with 0. lia.
Qed.

(** ** Iteration *)
Definition rest (s : hset) (i : Z) : list Z :=
  map (fun k => h_items s (i + Z.of_nat k)) (seq 0 (Z.to_nat (h_cap s - i))).

Lemma rest_nil s i : h_cap s <= i -> rest s i = [].
Proof. intros H. unfold rest. replace (Z.to_nat (h_cap s - i)) with 0%nat by lia. reflexivity. Qed.
Lemma rest_cons s i : i < h_cap s -> rest s i = h_items s i :: rest s (i + 1).
Proof.
  intros H. unfold rest. replace (Z.to_nat (h_cap s - i)) with (S (Z.to_nat (h_cap s - (i + 1)))) by lia.
  cbn [seq map]. rewrite Z.add_0_r. f_equal. rewrite <- seq_shift, map_map.
  apply map_ext. intros k. f_equal. lia.
Qed.
Lemma rest_0 s : rest s 0 = tbl (h_items s) (Z.to_nat (h_cap s)).
Proof. unfold rest, tbl, idxs. rewrite map_map, Z.sub_0_r. reflexivity. Qed.

Lemma scan_ok s : forall fuel i, 0 <= i -> (Z.to_nat (h_cap s - i) < fuel)%nat ->
  exists r, itr_scan fuel s i = Ok r /\
    match r with
    | None => filter live (rest s i) = []
    | Some j => i <= j < h_cap s /\ live (h_items s j) = true /\
                filter live (rest s i) = h_items s j :: filter live (rest s (j + 1))
    end.
Proof.
  induction fuel as [|fuel IH]; intros i Hi Hf; [lia|]. cbn [itr_scan].
  destruct (Z.ltb_spec i (h_cap s)) as [Hlt|Hge].
  - rewrite hs_get_ok by lia. cbn [bind]. rewrite (rest_cons s i Hlt). cbn [filter].
    change (negb (h_items s i =? 0) && negb (h_items s i =? 1)) with (live (h_items s i)).
    destruct (live (h_items s i)) eqn:El.
    + exists (Some i). split; [reflexivity|]. split; [lia|]. split; [exact El|reflexivity].
    + destruct (IH (i + 1) ltac:(lia) ltac:(lia)) as (r & E & Hr). exists r. split; [exact E|].
      destruct r as [j|]; [|exact Hr]. destruct Hr as (H1 & H2 & H3). split; [lia|split; assumption].
  - exists None. split; [reflexivity|]. rewrite rest_nil by lia. reflexivity.
Qed.

Lemma next_ok s L i : hinv s L -> -1 <= i < h_cap s ->
  exists r, itr_next s i = Ok r /\
    match r with
    | None => filter live (rest s (i + 1)) = []
    | Some j => i < j < h_cap s /\ live (h_items s j) = true /\
                filter live (rest s (i + 1)) = h_items s j :: filter live (rest s (j + 1))
    end.
Proof.
  intros H Hi. unfold itr_next.
  destruct (Z.eqb_spec (h_nitems s) 0) as [E0|E0]; cbn [orb].
  - exists None. split; [reflexivity|]. rewrite (items_len s L H) in E0.
    assert (EL : filter live (tbl (h_items s) (Z.to_nat (h_cap s))) = []).
    { apply length_zero_iff_nil. rewrite <- (Permutation_length (hi_L _ _ H)). lia. }
    destruct (filter live (rest s (i + 1))) as [|v l] eqn:E; [reflexivity|]. exfalso.
    assert (Hv : In v (filter live (rest s (i + 1)))) by (rewrite E; left; reflexivity).
    apply filter_In in Hv as [Hv Hl]. unfold rest in Hv. apply in_map_iff in Hv as (k & Ek & Hk). apply in_seq in Hk.
    assert (Hin : In v (filter live (tbl (h_items s) (Z.to_nat (h_cap s))))).
    { apply filter_In; split; [|exact Hl]. apply in_tbl. exists (i + 1 + Z.of_nat k). split; [lia|exact Ek]. }
    rewrite EL in Hin. destruct Hin.
  - destruct (Z.eqb_spec (i + 1) (h_cap s)) as [E1|E1].
    + exists None. split; [reflexivity|]. rewrite rest_nil by lia. reflexivity.
    + destruct (scan_ok s (hs_fuel s) (i + 1) ltac:(lia) ltac:(unfold hs_fuel; lia)) as (r & E & Hr).
      exists r. split; [exact E|]. destruct r as [j|]; [|exact Hr].
      destruct Hr as (H1 & H2 & H3). split; [lia|split; assumption].
Qed.

Lemma value_ok s i : 0 <= i < h_cap s -> live (h_items s i) = true -> itr_value s i = Ok (h_items s i).
Proof.
  intros Hi Hl. unfold itr_value. destruct (Z.ltb_spec i 0); [lia|]. rewrite hs_get_ok by lia. cbn [bind].
  apply live_spec in Hl as [H0 H1].
  destruct (Z.eqb_spec (h_items s i) 0); [contradiction|]. destruct (Z.eqb_spec (h_items s i) 1); [contradiction|]. reflexivity.
Qed.

Lemma all_ok s L : hinv s L -> forall fuel i, -1 <= i < h_cap s -> (Z.to_nat (h_cap s - i) <= fuel)%nat ->
  itr_all fuel s i = Ok (filter live (rest s (i + 1))).
Proof.
  intros H. induction fuel as [|fuel IH]; intros i Hi Hf; [lia|]. cbn [itr_all].
  destruct (next_ok s L i H Hi) as (r & E & Hr). rewrite E. cbn [bind].
  destruct r as [j|]; [|rewrite Hr; reflexivity].
  destruct Hr as (H1 & H2 & H3). rewrite value_ok by (try assumption; lia). cbn [bind].
  rewrite IH by lia. cbn [bind]. rewrite H3. reflexivity.
Qed.

Lemma iterate_ok s L : hinv s L ->
  exists vs, itr_all (S (hs_fuel s)) s (-1) = Ok vs /\ Permutation vs L /\ NoDup vs.
Proof.
  intros H. pose proof (hinv_cap_pos _ _ H).
  exists (filter live (tbl (h_items s) (Z.to_nat (h_cap s)))). split.
  - rewrite (all_ok s L H) by (try (unfold hs_fuel); lia). change (-1 + 1) with 0. rewrite rest_0. reflexivity.
  - split; [apply Permutation_sym; apply H|]. eapply Permutation_NoDup; [apply (hi_L _ _ H)|apply H].
Qed.
Lemma has_next_iff s L i : hinv s L -> -1 <= i < h_cap s ->
  exists r b, itr_next s i = Ok r /\ itr_has_next s i = Ok b /\ (b = true <-> exists j, r = Some j).
Proof.
  intros H Hi. destruct (next_ok s L i H Hi) as (r & E & _). unfold itr_has_next. rewrite E. cbn [bind].
  eexists _, _. split; [reflexivity|]. split; [reflexivity|].
  destruct r as [j|]; split; try discriminate; [exists j; reflexivity|reflexivity|intros (j & Hj); discriminate].
Qed.
