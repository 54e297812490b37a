(** Proofs about the priority queue. *)
From Verif Require Import Base Pqueue PqueueSpec.
From Coq Require Import Permutation.
Open Scope nat_scope.
Ltac Zify.zify_post_hook ::= Z.div_mod_to_equations.

Definition val (d : nat -> option elem) (i : nat) : elem :=
  match d i with Some e => e | None => 0 end.
Definition live (d : nat -> option elem) (i : nat) : Prop := d i <> None.

(** Virtual array: the array with the hole [i] filled by the moving element [m]. *)
Definition virt (d : nat -> option elem) (i : nat) (m : elem) : nat -> elem :=
  fun k => if k =? i then m else val d k.
Definition tr (a b k : nat) : nat := if k =? a then b else if k =? b then a else k.
Definition content (n : nat) (v : nat -> elem) : list elem := map v (seq 1 (n - 1)).

Lemma tr_invol a b k : tr a b (tr a b k) = k.
Proof.
  unfold tr. destruct (Nat.eqb_spec k a) as [->|na].
  - destruct (Nat.eqb_spec b a) as [->|nb]; [reflexivity|]. rewrite Nat.eqb_refl; reflexivity.
  - destruct (Nat.eqb_spec k b) as [->|nb].
    + rewrite Nat.eqb_refl; reflexivity.
    + destruct (Nat.eqb_spec k a); [lia|]. destruct (Nat.eqb_spec k b); [lia|reflexivity].
Qed.

Lemma content_swap n a b v v' : 1 <= a < n -> 1 <= b < n ->
  (forall k, 1 <= k < n -> v' k = v (tr a b k)) ->
  Permutation (content n v') (content n v).
Proof.
  intros Ha Hb Hv. unfold content.
  assert (E : map v' (seq 1 (n - 1)) = map v (map (tr a b) (seq 1 (n - 1)))).
  { rewrite map_map. apply map_ext_in. intros k Hk. apply in_seq in Hk. apply Hv; lia. }
  rewrite E. apply Permutation_map. apply NoDup_Permutation.
  - apply FinFun.Injective_map_NoDup; [|apply seq_NoDup].
    intros x y Hxy. rewrite <- (tr_invol a b x), <- (tr_invol a b y), Hxy; reflexivity.
  - apply seq_NoDup.
  - intros x. rewrite in_map_iff. split.
    + intros (y & Hy & Hin). apply in_seq in Hin. apply in_seq. subst x.
      unfold tr. destruct (Nat.eqb_spec y a); [lia|]. destruct (Nat.eqb_spec y b); lia.
    + intros Hin. exists (tr a b x). split; [apply tr_invol|].
      apply in_seq in Hin. apply in_seq. unfold tr.
      destruct (Nat.eqb_spec x a); [lia|]. destruct (Nat.eqb_spec x b); lia.
Qed.

Lemma content_ext n v v' : (forall k, 1 <= k < n -> v' k = v k) -> content n v' = content n v.
Proof. intros H. apply map_ext_in. intros k Hk. apply in_seq in Hk. apply H; lia. Qed.

Lemma nodup_map_inj {A} (v : nat -> A) l : NoDup (map v l) -> NoDup l ->
  forall i j, In i l -> In j l -> v i = v j -> i = j.
Proof.
  induction l as [|x l IH]; cbn; intros Hn Hl i j Hi Hj E; [contradiction|].
  apply NoDup_cons_iff in Hn as [Hx Hn]. apply NoDup_cons_iff in Hl as [Hx' Hl].
  destruct Hi as [<-|Hi], Hj as [<-|Hj]; try reflexivity.
  - exfalso; apply Hx. rewrite E. apply in_map; assumption.
  - exfalso; apply Hx. rewrite <- E. apply in_map; assumption.
  - apply IH; assumption.
Qed.
Lemma content_inj n v : NoDup (content n v) ->
  forall i j, 1 <= i < n -> 1 <= j < n -> v i = v j -> i = j.
Proof.
  intros H i j Hi Hj. apply (nodup_map_inj v (seq 1 (n - 1)) H (seq_NoDup _ _)); apply in_seq; lia.
Qed.
Lemma content_in n v x : In x (content n v) <-> exists k, 1 <= k < n /\ v k = x.
Proof.
  unfold content. rewrite in_map_iff. split.
  - intros (k & E & Hk). apply in_seq in Hk. exists k; split; [lia|exact E].
  - intros (k & Hk & E). exists k; split; [exact E|apply in_seq; lia].
Qed.
Lemma content_length n v : length (content n v) = n - 1.
Proof. unfold content. rewrite map_length, seq_length; reflexivity. Qed.

Lemma upd_eq {A} (f : nat -> A) i x : upd f i x i = x.
Proof. unfold upd. rewrite Nat.eqb_refl; reflexivity. Qed.
Lemma upd_neq {A} (f : nat -> A) i x j : j <> i -> upd f i x j = f j.
Proof. unfold upd. intros H. destruct (Nat.eqb_spec j i); [contradiction|reflexivity]. Qed.

Lemma rd_ok q i : i < pq_avail q -> live (pq_d q) i -> rd q i = Ok (val (pq_d q) i).
Proof.
  unfold rd, live, val. intros H L.
  destruct (Nat.ltb_spec i (pq_avail q)); [|lia].
  destruct (pq_d q i); [reflexivity|contradiction].
Qed.
Lemma wr_ok q i e : i < pq_avail q ->
  wr q i e = Ok (mkPq (pq_size q) (pq_avail q) (pq_step q) (upd (pq_d q) i (Some e)) (pq_pos q)).
Proof. unfold wr. intros H. destruct (Nat.ltb_spec i (pq_avail q)); [reflexivity|lia]. Qed.

Section WithCmp.
Variable cmp : elem -> elem -> Z.
Hypothesis Hcmp : cmp_ok cmp.
Notation gt a b := (cmp a b = 1%Z).

Lemma gt_irrefl a : ~ gt a a.
Proof. intros H. exact (cmp_asym _ Hcmp _ _ H H). Qed.
Lemma gt_trans a b c : gt a b -> gt b c -> gt a c.
Proof.
  intros H1 H2. destruct (cmp_negtrans _ Hcmp a c b H1) as [H|H]; [exact H|].
  exfalso; exact (cmp_asym _ Hcmp _ _ H2 H).
Qed.
Lemma ngt_trans a b c : ~ gt a b -> ~ gt b c -> ~ gt a c.
Proof. intros H1 H2 H. destruct (cmp_negtrans _ Hcmp a b c H); contradiction. Qed.
Lemma gt_ngt a b : gt a b -> ~ gt b a.
Proof. apply (cmp_asym _ Hcmp). Qed.

Definition ordered (n : nat) (v : nat -> elem) : Prop :=
  forall j, 2 <= j < n -> ~ gt (v (j / 2)) (v j).
(** order except between [i] and its parent, with the shortcut over the hole *)
Definition ordered_up (n i : nat) (v : nat -> elem) : Prop :=
  (forall j, 2 <= j < n -> j <> i -> ~ gt (v (j / 2)) (v j)) /\
  (forall j, 2 <= j < n -> j / 2 = i -> 2 <= i -> ~ gt (v (i / 2)) (v j)).
(** order except between [i] and its children, with the shortcut over the hole *)
Definition ordered_down (n i : nat) (v : nat -> elem) : Prop :=
  (forall j, 2 <= j < n -> j / 2 <> i -> ~ gt (v (j / 2)) (v j)) /\
  (forall j, 2 <= j < n -> j / 2 = i -> 2 <= i -> ~ gt (v (i / 2)) (v j)).

Definition posok (n i : nat) (v : nat -> elem) (pos : elem -> nat) : Prop :=
  forall k, 1 <= k < n -> k <> i -> pos (v k) = k.

Lemma bubble_loop_spec : forall fuel q i m n,
  i < fuel -> n <= pq_avail q -> 1 <= i < n ->
  (forall k, 1 <= k < n -> k <> i -> live (pq_d q) k) ->
  NoDup (content n (virt (pq_d q) i m)) ->
  posok n i (virt (pq_d q) i m) (pq_pos q) ->
  ordered_up n i (virt (pq_d q) i m) ->
  exists q' j, bubble_loop cmp fuel q i m = Ok (q', j) /\ 1 <= j < n /\
    pq_size q' = pq_size q /\ pq_avail q' = pq_avail q /\ pq_step q' = pq_step q /\
    (forall k, 1 <= k < n -> k <> j -> live (pq_d q') k) /\
    Permutation (content n (virt (pq_d q') j m)) (content n (virt (pq_d q) i m)) /\
    posok n j (virt (pq_d q') j m) (pq_pos q') /\
    ordered n (virt (pq_d q') j m) /\
    (forall x, ~ In x (content n (virt (pq_d q) i m)) -> pq_pos q' x = pq_pos q x).
Proof.
  induction fuel as [|fuel IH]; intros q i m n Hf Hav Hi Hlive Hnd Hpos Hord; [lia|].
  cbn [bubble_loop].
  assert (Hdone : (i = 1 \/ ~ gt (virt (pq_d q) i m (i / 2)) m) ->
     exists (q' : pq) (j : nat), Ok (q, i) = Ok (q', j) /\ 1 <= j < n /\
    pq_size q' = pq_size q /\ pq_avail q' = pq_avail q /\ pq_step q' = pq_step q /\
    (forall k, 1 <= k < n -> k <> j -> live (pq_d q') k) /\
    Permutation (content n (virt (pq_d q') j m)) (content n (virt (pq_d q) i m)) /\
    posok n j (virt (pq_d q') j m) (pq_pos q') /\
    ordered n (virt (pq_d q') j m) /\
    (forall x, ~ In x (content n (virt (pq_d q) i m)) -> pq_pos q' x = pq_pos q x)).
  { intros Hstop. exists q, i. split; [reflexivity|]. repeat (split; [solve [auto]|]).
    split; [|auto].
    intros j Hj. destruct (Nat.eq_dec j i) as [->|ne]; [|apply Hord; assumption].
    destruct Hstop as [H1|H1]; [lia|].
    unfold virt at 2. rewrite Nat.eqb_refl. exact H1. }
  destruct (Nat.ltb_spec 1 i) as [H1|H1]; [|apply Hdone; lia].
  unfold PARENT in *.
  assert (Hp : 1 <= i / 2 < i) by lia.
  assert (Hvp : virt (pq_d q) i m (i / 2) = val (pq_d q) (i / 2)).
  { unfold virt. destruct (Nat.eqb_spec (i / 2) i); [lia|reflexivity]. }
  rewrite rd_ok; [|lia|apply Hlive; lia]. cbn [bind].
  destruct (Z.eqb_spec (cmp (val (pq_d q) (i / 2)) m) 1) as [Hgt|Hngt];
    [|apply Hdone; right; rewrite Hvp; exact Hngt].
  rewrite wr_ok by lia. cbn [bind].
  set (x := val (pq_d q) (i / 2)) in *.
  set (q1 := setpos _ x i).
  (* virtual arrays before and after *)
  set (v := virt (pq_d q) i m) in *.
  assert (Hv' : forall k, 1 <= k < n -> virt (pq_d q1) (i / 2) m k = v (tr i (i / 2) k)).
  { intros k Hk. unfold v, virt, q1, tr. cbn [setpos pq_d].
    destruct (Nat.eqb_spec k (i / 2)) as [->|nk].
    - destruct (Nat.eqb_spec (i / 2) i); [lia|]. rewrite Nat.eqb_refl; reflexivity.
    - destruct (Nat.eqb_spec k i) as [->|nk'].
      + unfold val at 1. rewrite upd_eq.
        destruct (Nat.eqb_spec (i / 2) i); [lia|reflexivity].
      + unfold val at 1. rewrite upd_neq by assumption.
        destruct (Nat.eqb_spec k i); [lia|reflexivity]. }
  assert (Hperm : Permutation (content n (virt (pq_d q1) (i / 2) m)) (content n v)).
  { apply (content_swap n i (i / 2)); [lia|lia|exact Hv']. }
  assert (Hvi : v i = m) by (unfold v, virt; rewrite Nat.eqb_refl; reflexivity).
  edestruct (IH q1 (i / 2) m n) as (q' & j & Hrun & Hj & Hs & Ha & Hst & Hl & Hpm & Hpo & Hor & Hfr).
  - lia.
  - exact Hav.
  - lia.
  - intros k Hk nk. unfold live, q1; cbn [setpos pq_d].
    destruct (Nat.eq_dec k i) as [->|nk']; [rewrite upd_eq; discriminate|].
    rewrite upd_neq by assumption. apply Hlive; assumption.
  - apply (Permutation_NoDup (Permutation_sym Hperm)); exact Hnd.
  - intros k Hk nk. rewrite Hv' by lia. unfold q1; cbn [setpos pq_pos].
    unfold tr. destruct (Nat.eqb_spec k i) as [->|nk'].
    + rewrite Hvp. apply upd_eq.
    + destruct (Nat.eqb_spec k (i / 2)); [lia|].
      rewrite upd_neq; [apply Hpos; assumption|].
      rewrite <- Hvp. intros E. apply (content_inj n v Hnd) in E; lia.
  - destruct Hord as [Ho1 Ho2].
    split.
    + intros k Hk nk. rewrite !Hv' by lia. unfold tr.
      destruct (Nat.eqb_spec k i) as [->|nki].
      * destruct (Nat.eqb_spec (i / 2) i); [lia|]. rewrite Nat.eqb_refl.
        rewrite Hvi, Hvp. apply gt_ngt; exact Hgt.
      * destruct (Nat.eqb_spec k (i / 2)); [lia|].
        destruct (Nat.eqb_spec (k / 2) i) as [e|ne].
        -- apply Ho2; lia.
        -- destruct (Nat.eqb_spec (k / 2) (i / 2)) as [e|ne'].
           ++ rewrite Hvi. intros Hg. apply (Ho1 k); [lia|assumption|].
              rewrite e, Hvp. exact (gt_trans _ _ _ Hgt Hg).
           ++ apply Ho1; assumption.
    + intros k Hk e Hi2. rewrite !Hv' by lia. unfold tr.
      destruct (Nat.eqb_spec (i / 2 / 2) i); [lia|].
      destruct (Nat.eqb_spec (i / 2 / 2) (i / 2)); [lia|].
      destruct (Nat.eqb_spec k i) as [->|nki].
      * apply Ho1; lia.
      * destruct (Nat.eqb_spec k (i / 2)); [lia|].
        apply (ngt_trans _ (v (i / 2))); [apply Ho1; lia|].
        rewrite <- e. apply Ho1; lia.
  - exists q', j. rewrite Hrun. split; [reflexivity|]. split; [exact Hj|].
    split; [exact Hs|]. split; [exact Ha|]. split; [exact Hst|]. split; [exact Hl|].
    split; [exact (Permutation_trans Hpm Hperm)|]. split; [exact Hpo|]. split; [exact Hor|].
    intros y Hy. rewrite Hfr.
    + unfold q1; cbn [setpos pq_pos]. apply upd_neq. intros ->. apply Hy.
      rewrite <- Hvp. apply content_in. exists (i / 2); split; [lia|reflexivity].
    + intros Hin. apply Hy. exact (Permutation_in _ Hperm Hin).
Qed.

Lemma maxchild_spec q i n :
  n = pq_size q -> n <= pq_avail q -> 1 <= i ->
  (forall k, 1 <= k < n -> k <> i -> live (pq_d q) k) ->
  exists c, maxchild cmp q i = Ok c /\
    ((c = 0 /\ n <= 2 * i) \/
     (c / 2 = i /\ 2 * i <= c < n /\
      forall k, 2 <= k < n -> k / 2 = i -> ~ gt (val (pq_d q) c) (val (pq_d q) k))).
Proof.
  intros -> Hav Hi Hl. unfold maxchild, LEFT.
  destruct (Nat.leb_spec (pq_size q) (2 * i)) as [H|H].
  { exists 0; split; [reflexivity|left; lia]. }
  destruct (Nat.ltb_spec (2 * i + 1) (pq_size q)) as [H'|H'].
  - rewrite !rd_ok; try lia; try (apply Hl; lia). cbn [bind].
    destruct (Z.eqb_spec (cmp (val (pq_d q) (2 * i)) (val (pq_d q) (2 * i + 1))) 1) as [g|ng].
    + exists (2 * i + 1). split; [reflexivity|right]. repeat split; try lia.
      intros k Hk e. assert (k = 2 * i \/ k = 2 * i + 1) as [-> | ->] by lia.
      * apply gt_ngt; exact g.
      * apply gt_irrefl.
    + exists (2 * i). split; [reflexivity|right]. repeat split; try lia.
      intros k Hk e. assert (k = 2 * i \/ k = 2 * i + 1) as [-> | ->] by lia.
      * apply gt_irrefl.
      * exact ng.
  - exists (2 * i). split; [reflexivity|right]. repeat split; try lia.
    intros k Hk e. assert (k = 2 * i) as -> by lia. apply gt_irrefl.
Qed.

Lemma percolate_loop_spec : forall fuel q i m n,
  n < fuel + i -> 1 <= fuel -> n = pq_size q -> n <= pq_avail q -> 1 <= i < n ->
  (forall k, 1 <= k < n -> k <> i -> live (pq_d q) k) ->
  NoDup (content n (virt (pq_d q) i m)) ->
  posok n i (virt (pq_d q) i m) (pq_pos q) ->
  ordered_down n i (virt (pq_d q) i m) ->
  exists q' j, percolate_loop cmp fuel q i m = Ok (q', j) /\ 1 <= j < n /\
    pq_size q' = pq_size q /\ pq_avail q' = pq_avail q /\ pq_step q' = pq_step q /\
    (forall k, 1 <= k < n -> k <> j -> live (pq_d q') k) /\
    Permutation (content n (virt (pq_d q') j m)) (content n (virt (pq_d q) i m)) /\
    posok n j (virt (pq_d q') j m) (pq_pos q') /\
    ordered n (virt (pq_d q') j m) /\
    (forall x, ~ In x (content n (virt (pq_d q) i m)) -> pq_pos q' x = pq_pos q x).
Proof.
  induction fuel as [|fuel IH]; intros q i m n Hf Hf1 En Hav Hi Hlive Hnd Hpos Hord; [lia|].
  cbn [percolate_loop].
  destruct (maxchild_spec q i n En Hav ltac:(lia) Hlive) as (c & Hc & Hcc).
  rewrite Hc. cbn [bind].
  assert (Hvi : virt (pq_d q) i m i = m) by (unfold virt; rewrite Nat.eqb_refl; reflexivity).
  assert (Hvk : forall k, k <> i -> virt (pq_d q) i m k = val (pq_d q) k).
  { intros k nk. unfold virt. destruct (Nat.eqb_spec k i); [contradiction|reflexivity]. }
  assert (Hdone : (forall k, 2 <= k < n -> k / 2 = i -> ~ gt m (val (pq_d q) k)) ->
     exists (q' : pq) (j : nat), Ok (q, i) = Ok (q', j) /\ 1 <= j < n /\
    pq_size q' = pq_size q /\ pq_avail q' = pq_avail q /\ pq_step q' = pq_step q /\
    (forall k, 1 <= k < n -> k <> j -> live (pq_d q') k) /\
    Permutation (content n (virt (pq_d q') j m)) (content n (virt (pq_d q) i m)) /\
    posok n j (virt (pq_d q') j m) (pq_pos q') /\
    ordered n (virt (pq_d q') j m) /\
    (forall x, ~ In x (content n (virt (pq_d q) i m)) -> pq_pos q' x = pq_pos q x)).
  { intros Hstop. exists q, i. split; [reflexivity|]. repeat (split; [solve [auto]|]).
    split; [|auto].
    intros j Hj. destruct (Nat.eq_dec (j / 2) i) as [e|ne]; [|apply Hord; assumption].
    rewrite e, Hvi, Hvk by lia. apply Hstop; assumption. }
  destruct Hcc as [[-> Hn]|(Hch & Hcr & Hmin)].
  { cbn [Nat.eqb]. apply Hdone. intros k Hk e; lia. }
  destruct (Nat.eqb_spec c 0) as [e|ne]; [lia|].
  rewrite rd_ok; [|lia|apply Hlive; lia]. cbn [bind].
  destruct (Z.eqb_spec (cmp m (val (pq_d q) c)) 1) as [Hgt|Hngt].
  2:{ apply Hdone. intros k Hk e. exact (ngt_trans _ _ _ Hngt (Hmin k Hk e)). }
  rewrite wr_ok by lia. cbn [bind].
  set (x := val (pq_d q) c) in *.
  set (q1 := setpos _ x i).
  set (v := virt (pq_d q) i m) in *.
  assert (Hvc : v c = x) by (unfold x; apply Hvk; lia).
  assert (Hv' : forall k, 1 <= k < n -> virt (pq_d q1) c m k = v (tr i c k)).
  { intros k Hk. unfold v, virt, q1, tr. cbn [setpos pq_d].
    destruct (Nat.eqb_spec k c) as [->|nk].
    - destruct (Nat.eqb_spec c i); [lia|]. rewrite Nat.eqb_refl; reflexivity.
    - destruct (Nat.eqb_spec k i) as [->|nk'].
      + unfold val at 1. rewrite upd_eq.
        destruct (Nat.eqb_spec c i); [lia|reflexivity].
      + unfold val at 1. rewrite upd_neq by assumption.
        destruct (Nat.eqb_spec k i); [lia|reflexivity]. }
  assert (Hperm : Permutation (content n (virt (pq_d q1) c m)) (content n v)).
  { apply (content_swap n i c); [lia|lia|exact Hv']. }
  edestruct (IH q1 c m n) as (q' & j & Hrun & Hj & Hs & Ha & Hst & Hl & Hpm & Hpo & Hor & Hfr).
  - lia.
  - lia.
  - exact En.
  - exact Hav.
  - lia.
  - intros k Hk nk. unfold live, q1; cbn [setpos pq_d].
    destruct (Nat.eq_dec k i) as [->|nk']; [rewrite upd_eq; discriminate|].
    rewrite upd_neq by assumption. apply Hlive; assumption.
  - apply (Permutation_NoDup (Permutation_sym Hperm)); exact Hnd.
  - intros k Hk nk. rewrite Hv' by lia. unfold q1; cbn [setpos pq_pos].
    unfold tr. destruct (Nat.eqb_spec k i) as [->|nk'].
    + rewrite Hvc. apply upd_eq.
    + destruct (Nat.eqb_spec k c); [lia|].
      rewrite upd_neq; [apply Hpos; assumption|].
      rewrite <- Hvc. intros E. apply (content_inj n v Hnd) in E; lia.
  - destruct Hord as [Ho1 Ho2].
    split.
    + intros k Hk nk. rewrite !Hv' by lia. unfold tr.
      destruct (Nat.eqb_spec k i) as [->|nki].
      * destruct (Nat.eqb_spec (i / 2) i); [lia|].
        destruct (Nat.eqb_spec (i / 2) c); [lia|]. apply Ho2; lia.
      * destruct (Nat.eqb_spec k c) as [->|nkc].
        -- destruct (Nat.eqb_spec (c / 2) i); [|lia]. rewrite Hvi, Hvc. apply gt_ngt; exact Hgt.
        -- destruct (Nat.eqb_spec (k / 2) i) as [e|ne'].
           ++ rewrite Hvc. rewrite (Hvk k) by lia. apply Hmin; lia.
           ++ destruct (Nat.eqb_spec (k / 2) c) as [e|ne'']; [lia|]. apply Ho1; lia.
    + intros k Hk e Hi2. rewrite !Hv' by lia. unfold tr.
      destruct (Nat.eqb_spec (c / 2) i); [|lia].
      destruct (Nat.eqb_spec k i) as [->|nki]; [lia|].
      destruct (Nat.eqb_spec k c); [lia|].
      rewrite <- e. apply Ho1; lia.
  - exists q', j. rewrite Hrun. split; [reflexivity|]. split; [exact Hj|].
    split; [exact Hs|]. split; [exact Ha|]. split; [exact Hst|]. split; [exact Hl|].
    split; [exact (Permutation_trans Hpm Hperm)|]. split; [exact Hpo|]. split; [exact Hor|].
    intros y Hy. rewrite Hfr.
    + unfold q1; cbn [setpos pq_pos]. apply upd_neq. intros ->. apply Hy.
      rewrite <- Hvc. apply content_in. exists c; split; [lia|reflexivity].
    + intros Hin. apply Hy. exact (Permutation_in _ Hperm Hin).
Qed.

(** The invariant of a queue. *)
Record inv (q : pq) : Prop := {
  inv_size : 1 <= pq_size q <= pq_avail q;
  inv_step : 1 <= pq_step q;
  inv_live : forall k, 1 <= k < pq_size q -> live (pq_d q) k;
  inv_nodup : NoDup (content (pq_size q) (val (pq_d q)));
  inv_pos : forall k, 1 <= k < pq_size q -> pq_pos q (val (pq_d q) k) = k;
  inv_ord : ordered (pq_size q) (val (pq_d q))
}.

Definition qel (q : pq) : list elem := content (pq_size q) (val (pq_d q)).

Lemma elems_qel q : inv q -> pq_elems q = qel q.
Proof.
  intros H. unfold pq_elems, qel, content.
  assert (HL : forall k, In k (seq 1 (pq_size q - 1)) -> live (pq_d q) k).
  { intros k Hk. apply in_seq in Hk. apply (inv_live _ H); lia. }
  induction (seq 1 (pq_size q - 1)) as [|k l IH]; [reflexivity|].
  cbn [flat_map map]. rewrite IH by (intros; apply HL; right; assumption).
  assert (live (pq_d q) k) by (apply HL; left; reflexivity).
  unfold live, val in *. destruct (pq_d q k); [reflexivity|contradiction].
Qed.

(** Filling the hole. *)
Lemma fill_inv q' j m : 1 <= j < pq_size q' -> pq_size q' <= pq_avail q' -> 1 <= pq_step q' ->
  (forall k, 1 <= k < pq_size q' -> k <> j -> live (pq_d q') k) ->
  NoDup (content (pq_size q') (virt (pq_d q') j m)) ->
  posok (pq_size q') j (virt (pq_d q') j m) (pq_pos q') ->
  ordered (pq_size q') (virt (pq_d q') j m) ->
  let q2 := setpos (mkPq (pq_size q') (pq_avail q') (pq_step q') (upd (pq_d q') j (Some m)) (pq_pos q')) m j in
  inv q2 /\ qel q2 = content (pq_size q') (virt (pq_d q') j m).
Proof.
  intros Hj Hav Hst Hl Hnd Hpo Hor q2.
  assert (Hv : forall k, val (pq_d q2) k = virt (pq_d q') j m k).
  { intros k. unfold q2, virt, val; cbn [setpos pq_d].
    destruct (Nat.eqb_spec k j) as [->|nk]; [rewrite upd_eq; reflexivity|rewrite upd_neq by assumption; reflexivity]. }
  assert (Hc : content (pq_size q') (val (pq_d q2)) = content (pq_size q') (virt (pq_d q') j m)).
  { apply content_ext. intros k _. apply Hv. }
  split; [|exact Hc].
  assert (Hvj : virt (pq_d q') j m j = m) by (unfold virt; rewrite Nat.eqb_refl; reflexivity).
  constructor.
  - cbn. lia.
  - cbn. lia.
  - intros k Hk. cbn in Hk. unfold live, q2; cbn [setpos pq_d].
    destruct (Nat.eq_dec k j) as [->|nk]; [rewrite upd_eq; discriminate|].
    rewrite upd_neq by assumption. apply Hl; assumption.
  - change (pq_size q2) with (pq_size q'). rewrite Hc. exact Hnd.
  - intros k Hk. rewrite Hv. cbn in Hk.
    unfold q2; cbn [setpos pq_pos]. 
    destruct (Nat.eq_dec k j) as [->|nk].
    + rewrite Hvj. apply upd_eq.
    + rewrite upd_neq; [apply Hpo; assumption|].
      intros E. assert (E' : virt (pq_d q') j m k = virt (pq_d q') j m j) by congruence.
      apply (content_inj _ _ Hnd) in E'; lia.
  - intros k Hk. rewrite !Hv. cbn in Hk. apply Hor; assumption.
Qed.

Lemma bubble_up_spec q i m : 1 <= i < pq_size q -> pq_size q <= pq_avail q -> 1 <= pq_step q ->
  pq_d q i = Some m ->
  (forall k, 1 <= k < pq_size q -> live (pq_d q) k) ->
  NoDup (qel q) -> posok (pq_size q) i (val (pq_d q)) (pq_pos q) ->
  ordered_up (pq_size q) i (val (pq_d q)) ->
  exists q', bubble_up cmp q i = Ok q' /\ inv q' /\ Permutation (qel q') (qel q) /\
    pq_size q' = pq_size q /\ pq_avail q' = pq_avail q /\ pq_step q' = pq_step q /\
    (forall x, ~ In x (qel q) -> pq_pos q' x = pq_pos q x).
Proof.
  intros Hi Hav Hst Hm Hl Hnd Hpo Hor. unfold bubble_up.
  assert (Hvm : val (pq_d q) i = m) by (unfold val; rewrite Hm; reflexivity).
  rewrite rd_ok by (try lia; apply Hl; lia). cbn [bind]. rewrite Hvm.
  assert (Hv : forall k, virt (pq_d q) i m k = val (pq_d q) k).
  { intros k. unfold virt. destruct (Nat.eqb_spec k i) as [->|]; [congruence|reflexivity]. }
  assert (Hc : content (pq_size q) (virt (pq_d q) i m) = qel q).
  { apply content_ext. intros k _. apply Hv. }
  destruct (bubble_loop_spec (S i) q i m (pq_size q)) as (q' & j & Hrun & Hj & Hs & Ha & Hst' & Hl' & Hpm & Hpo' & Hor' & Hfr).
  - lia.
  - lia.
  - lia.
  - intros; apply Hl; assumption.
  - rewrite Hc; exact Hnd.
  - intros k Hk nk. rewrite Hv. apply Hpo; assumption.
  - destruct Hor as [H1 H2]. split; intros; rewrite !Hv; [apply H1|apply H2]; assumption.
  - rewrite Hrun. cbn [bind]. rewrite wr_ok by lia. cbn [bind].
    rewrite <- Hs in *.
    destruct (fill_inv q' j m) as [Hinv Hq]; try assumption; try lia.
    + apply (Permutation_NoDup (Permutation_sym Hpm)). rewrite Hc; exact Hnd.
    + eexists. split; [reflexivity|]. split; [exact Hinv|]. split.
      * rewrite Hq. rewrite <- Hc. exact Hpm.
      * repeat (split; [solve [cbn; lia]|]).
        intros x Hx. cbn [setpos pq_pos]. rewrite upd_neq; [apply Hfr; rewrite Hc; exact Hx|].
        intros ->. apply Hx. unfold qel. apply content_in. exists i; split; [lia|exact Hvm].
Qed.

Lemma percolate_down_spec q i m : 1 <= i < pq_size q -> pq_size q <= pq_avail q -> 1 <= pq_step q ->
  pq_d q i = Some m ->
  (forall k, 1 <= k < pq_size q -> live (pq_d q) k) ->
  NoDup (qel q) -> posok (pq_size q) i (val (pq_d q)) (pq_pos q) ->
  ordered_down (pq_size q) i (val (pq_d q)) ->
  exists q', percolate_down cmp q i = Ok q' /\ inv q' /\ Permutation (qel q') (qel q) /\
    pq_size q' = pq_size q /\ pq_avail q' = pq_avail q /\ pq_step q' = pq_step q /\
    (forall x, ~ In x (qel q) -> pq_pos q' x = pq_pos q x).
Proof.
  intros Hi Hav Hst Hm Hl Hnd Hpo Hor. unfold percolate_down.
  assert (Hvm : val (pq_d q) i = m) by (unfold val; rewrite Hm; reflexivity).
  rewrite rd_ok by (try lia; apply Hl; lia). cbn [bind]. rewrite Hvm.
  assert (Hv : forall k, virt (pq_d q) i m k = val (pq_d q) k).
  { intros k. unfold virt. destruct (Nat.eqb_spec k i) as [->|]; [congruence|reflexivity]. }
  assert (Hc : content (pq_size q) (virt (pq_d q) i m) = qel q).
  { apply content_ext. intros k _. apply Hv. }
  destruct (percolate_loop_spec (S (pq_size q)) q i m (pq_size q)) as (q' & j & Hrun & Hj & Hs & Ha & Hst' & Hl' & Hpm & Hpo' & Hor' & Hfr).
  - lia.
  - lia.
  - reflexivity.
  - lia.
  - lia.
  - intros; apply Hl; assumption.
  - rewrite Hc; exact Hnd.
  - intros k Hk nk. rewrite Hv. apply Hpo; assumption.
  - destruct Hor as [H1 H2]. split; intros; rewrite !Hv; [apply H1|apply H2]; assumption.
  - rewrite Hrun. cbn [bind]. rewrite wr_ok by lia. cbn [bind].
    rewrite <- Hs in *.
    destruct (fill_inv q' j m) as [Hinv Hq]; try assumption; try lia.
    + apply (Permutation_NoDup (Permutation_sym Hpm)). rewrite Hc; exact Hnd.
    + eexists. split; [reflexivity|]. split; [exact Hinv|]. split.
      * rewrite Hq. rewrite <- Hc. exact Hpm.
      * repeat (split; [solve [cbn; lia]|]).
        intros x Hx. cbn [setpos pq_pos]. rewrite upd_neq; [apply Hfr; rewrite Hc; exact Hx|].
        intros ->. apply Hx. unfold qel. apply content_in. exists i; split; [lia|exact Hvm].
Qed.

Lemma content_S n v : 1 <= n -> content (S n) v = content n v ++ [v n].
Proof.
  intros H. unfold content. replace (S n - 1) with (S (n - 1)) by lia.
  rewrite seq_S, map_app. cbn [map]. replace (1 + (n - 1)) with n by lia. reflexivity.
Qed.

Lemma init_inv n pos : inv (pq_init n pos) /\ qel (pq_init n pos) = [].
Proof.
  split; [|reflexivity]. constructor; cbn; try lia.
  - constructor.
  - intros j Hj; cbn in Hj; lia.
Qed.

Lemma insert_spec q e : inv q -> ~ In e (qel q) ->
  exists q', pq_insert cmp q e = Ok q' /\ inv q' /\ Permutation (qel q') (e :: qel q) /\
    pq_size q' = S (pq_size q) /\
    (forall x, x <> e -> ~ In x (qel q) -> pq_pos q' x = pq_pos q x).
Proof.
  intros Hinv He. destruct Hinv as [Hsz Hst Hl Hnd Hpo Hor].
  unfold pq_insert.
  set (q1 := if pq_avail q <=? pq_size q then _ else q).
  assert (H1 : pq_size q1 = pq_size q /\ pq_size q < pq_avail q1 /\ pq_step q1 = pq_step q /\
               pq_d q1 = pq_d q /\ pq_pos q1 = pq_pos q).
  { unfold q1. destruct (Nat.leb_spec (pq_avail q) (pq_size q)); cbn; repeat split; lia. }
  destruct H1 as (E1 & E2 & E3 & E4 & E5). clearbody q1.
  rewrite wr_ok by (cbn; lia). cbn [bind set_size pq_size pq_avail pq_step pq_d pq_pos].
  rewrite E1, E4, E5.
  set (q2 := mkPq _ _ _ _ _).
  assert (Hval : forall k, k <> pq_size q -> val (pq_d q2) k = val (pq_d q) k).
  { intros k nk. unfold val, q2; cbn [pq_d]. rewrite upd_neq by assumption; reflexivity. }
  assert (Hval' : val (pq_d q2) (pq_size q) = e).
  { unfold val, q2; cbn [pq_d]. rewrite upd_eq; reflexivity. }
  assert (Hqel : qel q2 = qel q ++ [e]).
  { unfold qel. change (pq_size q2) with (S (pq_size q)). rewrite content_S by lia.
    rewrite Hval'. f_equal. apply content_ext. intros k Hk. apply Hval; lia. }
  destruct (bubble_up_spec q2 (pq_size q) e) as (q' & Hrun & Hinv' & Hperm & Hs' & Ha' & _ & Hfr).
  - cbn; lia.
  - cbn; lia.
  - cbn; lia.
  - unfold q2; cbn [pq_d]; apply upd_eq.
  - intros k Hk. cbn in Hk. destruct (Nat.eq_dec k (pq_size q)) as [->|nk].
    + unfold live, q2; cbn [pq_d]. rewrite upd_eq; discriminate.
    + unfold live, q2; cbn [pq_d]. rewrite upd_neq by assumption. apply Hl; lia.
  - rewrite Hqel. apply (Permutation_NoDup (Permutation_cons_append (qel q) e)).
    constructor; assumption.
  - intros k Hk nk. cbn in Hk. rewrite Hval by assumption. cbn [q2 pq_pos]. apply Hpo; lia.
  - cbn [q2 pq_size]. split.
    + intros j Hj nj. rewrite !Hval by lia. apply Hor; lia.
    + intros j Hj; lia.
  - exists q'. split; [exact Hrun|]. split; [exact Hinv'|]. split.
    + eapply Permutation_trans; [exact Hperm|]. rewrite Hqel.
      apply Permutation_sym, Permutation_cons_append.
    + split; [exact Hs'|]. intros x Hx Hx'. rewrite Hfr; [reflexivity|].
      rewrite Hqel, in_app_iff. cbn. intuition.
Qed.

Lemma peek_spec q : inv q ->
  (pq_size q = 1 /\ pq_peek q = Ok None /\ qel q = []) \/
  (exists e, pq_peek q = Ok (Some e) /\ In e (qel q) /\ e = val (pq_d q) 1 /\ forall x, In x (qel q) -> ~ gt e x).
Proof.
  intros [Hsz Hst Hl Hnd Hpo Hor]. unfold pq_peek.
  destruct (Nat.eqb_spec (pq_size q) 1) as [E|E].
  - left; split; [assumption|]. split; [reflexivity|]. unfold qel. rewrite E. reflexivity.
  - right. rewrite rd_ok by (try lia; apply Hl; lia). cbn [bind].
    eexists; split; [reflexivity|]. split.
    { apply content_in. exists 1; split; [lia|reflexivity]. }
    split; [reflexivity|].
    intros x Hx. apply content_in in Hx as (k & Hk & <-).
    induction k as [k IH] using (well_founded_induction lt_wf).
    destruct (Nat.eq_dec k 1) as [->|nk]; [apply gt_irrefl|].
    apply (ngt_trans _ (val (pq_d q) (k / 2))); [apply IH; lia|]. apply Hor; lia.
Qed.

(** The array after the last element has been moved into slot [i]. *)
Lemma moved_content n i v v' : 1 <= i < n -> 2 <= n ->
  (forall k, k <> i -> v' k = v k) -> v' i = v (n - 1) ->
  Permutation (content n v) (v i :: content (n - 1) v').
Proof.
  intros Hi Hn Hk Hvi.
  replace n with (S (n - 1)) at 1 by lia. rewrite content_S by lia.
  destruct (Nat.eq_dec i (n - 1)) as [->|ne].
  - rewrite <- (content_ext (n - 1) v v') by (intros; apply Hk; lia).
    apply Permutation_sym, Permutation_cons_append.
  - (* swap slots i and n-1 *)
    set (w := fun k => v (tr i (n - 1) k)).
    assert (P : Permutation (content n w) (content n v)).
    { apply (content_swap n i (n - 1)); [lia|lia|reflexivity]. }
    replace n with (S (n - 1)) in P by lia. rewrite !content_S in P by lia.
    replace (S (n - 1) - 1) with (n - 1) in P by lia.
    replace (S (n - 1)) with n in * by lia.
    assert (Ew : w (n - 1) = v i).
    { unfold w, tr. destruct (Nat.eqb_spec (n - 1) i); [lia|]. rewrite Nat.eqb_refl; reflexivity. }
    assert (Ec : content (n - 1) w = content (n - 1) v').
    { apply content_ext. intros k Hk'. unfold w, tr.
      destruct (Nat.eqb_spec k i) as [->|nk]; [congruence|].
      destruct (Nat.eqb_spec k (n - 1)); [lia|]. symmetry; apply Hk; assumption. }
    rewrite Ew, Ec in P. eapply Permutation_trans; [apply Permutation_sym; exact P|].
    apply Permutation_sym, Permutation_cons_append.
Qed.

(** Common part of pop and remove: slot [i] gets the last element. *)
Lemma moved_facts q i : inv q -> 2 <= pq_size q -> 1 <= i < pq_size q ->
  let n := pq_size q in
  let l := val (pq_d q) (n - 1) in
  let q2 := mkPq (n - 1) (pq_avail q) (pq_step q) (upd (pq_d q) i (Some l)) (pq_pos q) in
  (forall k, k <> i -> val (pq_d q2) k = val (pq_d q) k) /\ val (pq_d q2) i = l /\
  Permutation (qel q) (val (pq_d q) i :: qel q2) /\
  (forall k, 1 <= k < n -> live (pq_d q2) k) /\
  NoDup (qel q2) /\ posok (n - 1) i (val (pq_d q2)) (pq_pos q).
Proof.
  intros [Hsz Hst Hl Hnd Hpo Hor] Hn Hi n l q2.
  assert (Hk : forall k, k <> i -> val (pq_d q2) k = val (pq_d q) k).
  { intros k nk. unfold val, q2; cbn [pq_d]. rewrite upd_neq by assumption; reflexivity. }
  assert (Hvi : val (pq_d q2) i = l).
  { unfold val at 1, q2; cbn [pq_d]. rewrite upd_eq; reflexivity. }
  split; [exact Hk|]. split; [exact Hvi|].
  assert (P : Permutation (qel q) (val (pq_d q) i :: qel q2)).
  { apply moved_content; assumption. }
  split; [exact P|]. split.
  { intros k Hk'. unfold live, q2; cbn [pq_d]. destruct (Nat.eq_dec k i) as [->|nk].
    - rewrite upd_eq; discriminate.
    - rewrite upd_neq by assumption. apply Hl; assumption. }
  split.
  { apply (Permutation_NoDup P) in Hnd. apply NoDup_cons_iff in Hnd as [_ H]; exact H. }
  intros k Hk' nk. rewrite Hk by assumption. apply Hpo; lia.
Qed.

Lemma pop_spec q : inv q -> 2 <= pq_size q ->
  exists q' e, pq_pop cmp q = Ok (q', Some e) /\ inv q' /\ Permutation (qel q) (e :: qel q') /\
    (forall x, In x (qel q) -> ~ gt e x) /\ pq_size q' = pq_size q - 1 /\
    (forall x, ~ In x (qel q) -> pq_pos q' x = pq_pos q x).
Proof.
  intros Hinv Hn. pose proof Hinv as [Hsz Hst Hl Hnd Hpo Hor].
  destruct (peek_spec q Hinv) as [[E _]|(e & Hpk & Hin & -> & Hmin)]; [lia|].
  unfold pq_pop. destruct (Nat.eqb_spec (pq_size q) 1) as [E|E]; [lia|].
  rewrite rd_ok by (try lia; apply Hl; lia). cbn [bind].
  rewrite rd_ok by (cbn; try lia; apply Hl; lia). cbn [bind].
  rewrite wr_ok by (cbn; lia). cbn [bind set_size pq_size pq_avail pq_step pq_d pq_pos].
  destruct (moved_facts q 1 Hinv Hn ltac:(lia)) as (Hk & Hvi & P & Hlv & Hnd2 & Hpo2).
  set (l := val (pq_d q) (pq_size q - 1)) in *.
  set (q2 := mkPq (pq_size q - 1) _ _ _ _) in *.
  destruct (Nat.eq_dec (pq_size q) 2) as [E2|E2].
  - (* last element: percolate_down runs on slot 1 = size *)
    unfold percolate_down. cbn [q2]. rewrite rd_ok by (cbn; try lia; apply Hlv; lia).
    cbn [bind]. rewrite Hvi. cbn [percolate_loop].
    unfold maxchild. change (LEFT 1) with 2. cbn [pq_size q2].
    destruct (Nat.leb_spec (pq_size q - 1) 2); [|lia]. cbn [bind].
    cbn [Nat.eqb]. cbn [bind]. rewrite wr_ok by (cbn; lia). cbn [bind].
    eexists _, _; split; [reflexivity|].
    assert (Hq : qel q2 = []).
    { unfold qel. cbn [q2 pq_size]. replace (pq_size q - 1) with 1 by lia. reflexivity. }
    split.
    { constructor; cbn [setpos pq_size pq_avail pq_step pq_d pq_pos q2]; try lia.
      - replace (pq_size q - 1) with 1 by lia. constructor.
      - intros j Hj; lia. }
    split.
    { assert (Eq2 : forall qq, pq_size qq = 1 -> qel qq = []).
      { intros qq Hqq. unfold qel. rewrite Hqq. reflexivity. }
      rewrite (Eq2 (setpos _ _ _)) by (cbn [setpos pq_size q2]; lia). rewrite <- Hq. exact P. }
    split; [exact Hmin|]. split; [reflexivity|].
    intros x Hx. cbn [setpos pq_pos q2]. apply upd_neq. intros ->. apply Hx.
    unfold qel. apply content_in. exists (pq_size q - 1); split; [lia|reflexivity].
  - destruct (percolate_down_spec q2 1 l) as (q' & Hrun & Hinv' & Hperm & Hs' & Ha' & Hst' & Hfr).
    + cbn; lia.
    + cbn; lia.
    + exact Hst.
    + cbn [q2 pq_d]. apply upd_eq.
    + intros k Hk'. apply Hlv. cbn in Hk'; lia.
    + exact Hnd2.
    + exact Hpo2.
    + cbn [q2 pq_size]. split.
      * intros j Hj nj. rewrite !Hk by lia. apply Hor; lia.
      * intros j Hj e; lia.
    + rewrite Hrun. cbn [bind].
      eexists _, _; split; [reflexivity|]. split; [exact Hinv'|]. split.
      { eapply Permutation_trans; [exact P|]. constructor. apply Permutation_sym; exact Hperm. }
      split; [exact Hmin|]. split; [rewrite Hs'; reflexivity|].
      intros x Hx. rewrite Hfr; [reflexivity|]. intros Hin'. apply Hx.
      apply (Permutation_in _ (Permutation_sym P)). right; exact Hin'.
Qed.

Lemma pop_empty q : pq_size q = 1 -> pq_pop cmp q = Ok (q, None).
Proof. intros E. unfold pq_pop. rewrite E. reflexivity. Qed.

Lemma remove_spec q e : inv q -> In e (qel q) ->
  exists q', pq_remove cmp q e = Ok q' /\ inv q' /\ Permutation (qel q) (e :: qel q') /\
    pq_size q' = pq_size q - 1 /\
    (forall x, ~ In x (qel q) -> pq_pos q' x = pq_pos q x).
Proof.
  intros Hinv He. pose proof Hinv as [Hsz Hst Hl Hnd Hpo Hor].
  apply content_in in He as (i & Hi & <-).
  unfold pq_remove. destruct (Nat.eqb_spec (pq_size q) 1) as [E|E]; [lia|].
  rewrite Hpo by assumption.
  rewrite rd_ok by (cbn; try lia; apply Hl; lia). cbn [bind].
  rewrite wr_ok by (cbn; lia). cbn [bind set_size pq_size pq_avail pq_step pq_d pq_pos].
  destruct (moved_facts q i Hinv ltac:(lia) Hi) as (Hk & Hvi & P & Hlv & Hnd2 & Hpo2).
  set (l := val (pq_d q) (pq_size q - 1)) in *.
  set (q2 := mkPq (pq_size q - 1) _ _ _ _) in *.
  destruct (Nat.eq_dec i (pq_size q - 1)) as [Ei|Ei].
  - (* removing the last element *)
    assert (Hng : ~ gt (val (pq_d q) i) l) by (unfold l; rewrite Ei; apply gt_irrefl).
    destruct (Z.eqb_spec (cmp (val (pq_d q) i) l) 1) as [g|_]; [contradiction|].
    unfold percolate_down. rewrite rd_ok by (cbn; try lia; apply Hlv; lia).
    cbn [bind]. rewrite Hvi. cbn [percolate_loop].
    unfold maxchild, LEFT. cbn [pq_size q2].
    destruct (Nat.leb_spec (pq_size q - 1) (2 * i)); [|lia]. cbn [bind].
    cbn [Nat.eqb]. cbn [bind]. rewrite wr_ok by (cbn; lia). cbn [bind].
    eexists; split; [reflexivity|].
    set (q3 := setpos _ l i).
    assert (Hv3 : forall k, k <> i -> val (pq_d q3) k = val (pq_d q) k).
    { intros k nk. rewrite <- Hk by assumption. unfold q3, val; cbn [setpos pq_d].
      rewrite upd_neq by assumption. reflexivity. }
    assert (Hq3 : qel q3 = qel q2).
    { unfold qel. change (pq_size q3) with (pq_size q - 1). change (pq_size q2) with (pq_size q - 1).
      apply content_ext. intros k Hk'. rewrite Hv3, Hk by lia. reflexivity. }
    split.
    { constructor; change (pq_size q3) with (pq_size q - 1).
      - cbn; lia.
      - exact Hst.
      - intros k Hk'. unfold live, q3; cbn [setpos pq_d]. rewrite upd_neq by lia. apply Hlv; lia.
      - change (NoDup (qel q3)). rewrite Hq3. exact Hnd2.
      - intros k Hk'. rewrite Hv3 by lia. unfold q3; cbn [setpos pq_pos q2].
        rewrite upd_neq; [apply Hpo; lia|]. unfold l. intros Eq.
        apply (content_inj _ _ Hnd) in Eq; lia.
      - intros j Hj. rewrite !Hv3 by lia. apply Hor; lia. }
    rewrite Hq3. split; [exact P|]. split; [reflexivity|].
    intros x Hx. unfold q3; cbn [setpos pq_pos q2]. apply upd_neq. intros ->. apply Hx.
    unfold l, qel. apply content_in. exists (pq_size q - 1); split; [lia|reflexivity].
  - assert (Hpar : 2 <= i -> ~ gt (val (pq_d q) (i / 2)) (val (pq_d q) i)) by (intros; apply Hor; lia).
    assert (Hfin : forall q', inv q' -> Permutation (qel q') (qel q2) -> pq_size q' = pq_size q2 ->
        (forall x, ~ In x (qel q2) -> pq_pos q' x = pq_pos q2 x) ->
        inv q' /\ Permutation (qel q) (val (pq_d q) i :: qel q') /\ pq_size q' = pq_size q - 1 /\
        (forall x, ~ In x (qel q) -> pq_pos q' x = pq_pos q x)).
    { intros q' Hinv' Hperm Hs' Hfr. split; [exact Hinv'|]. split.
      { eapply Permutation_trans; [exact P|]. constructor. apply Permutation_sym; exact Hperm. }
      split; [rewrite Hs'; reflexivity|].
      intros x Hx. rewrite Hfr; [reflexivity|]. intros Hin'. apply Hx.
      apply (Permutation_in _ (Permutation_sym P)). right; exact Hin'. }
    destruct (Z.eqb_spec (cmp (val (pq_d q) i) l) 1) as [g|ng].
    + destruct (bubble_up_spec q2 i l) as (q' & Hrun & Hinv' & Hperm & Hs' & _ & _ & Hfr).
      * cbn; lia.
      * cbn; lia.
      * exact Hst.
      * cbn [q2 pq_d]. apply upd_eq.
      * intros k Hk'. apply Hlv. cbn in Hk'; lia.
      * exact Hnd2.
      * exact Hpo2.
      * cbn [q2 pq_size]. split.
        -- intros j Hj nj. rewrite (Hk j) by assumption.
           destruct (Nat.eq_dec (j / 2) i) as [e|ne].
           ++ rewrite e, Hvi. assert (Ho : ~ gt (val (pq_d q) (j / 2)) (val (pq_d q) j)) by (apply Hor; lia).
              rewrite e in Ho. intros Hg. apply Ho. exact (gt_trans _ _ _ g Hg).
           ++ rewrite Hk by assumption. apply Hor; lia.
        -- intros j Hj e Hi2. rewrite (Hk j) by lia. rewrite Hk by lia.
           apply (ngt_trans _ (val (pq_d q) i)); [apply Hpar; assumption|].
           rewrite <- e. apply Hor; lia.
      * exists q'. split; [exact Hrun|]. apply Hfin; assumption.
    + destruct (percolate_down_spec q2 i l) as (q' & Hrun & Hinv' & Hperm & Hs' & _ & _ & Hfr).
      * cbn; lia.
      * cbn; lia.
      * exact Hst.
      * cbn [q2 pq_d]. apply upd_eq.
      * intros k Hk'. apply Hlv. cbn in Hk'; lia.
      * exact Hnd2.
      * exact Hpo2.
      * cbn [q2 pq_size]. split.
        -- intros j Hj nj. destruct (Nat.eq_dec j i) as [->|nji].
           ++ rewrite Hvi, Hk by lia. apply (ngt_trans _ (val (pq_d q) i)); [apply Hpar; lia|exact ng].
           ++ rewrite !Hk by assumption. apply Hor; lia.
        -- intros j Hj e Hi2. rewrite (Hk j) by lia. rewrite Hk by lia.
           apply (ngt_trans _ (val (pq_d q) i)); [apply Hpar; assumption|].
           rewrite <- e. apply Hor; lia.
      * exists q'. split; [exact Hrun|]. apply Hfin; assumption.
Qed.

(** Searching. *)
Inductive under (i : nat) : nat -> Prop :=
| under_refl : under i i
| under_l j : under (2 * i) j -> under i j
| under_r j : under (2 * i + 1) j -> under i j.

Lemma under_one : forall k, 1 <= k -> under 1 k.
Proof.
  assert (step : forall k i, under i k -> under i (2 * k) /\ under i (2 * k + 1)).
  { intros k i H. induction H as [i|i j H IH|i j H IH].
    - split; [apply under_l; constructor|apply under_r; constructor].
    - destruct IH; split; apply under_l; assumption.
    - destruct IH; split; apply under_r; assumption. }
  intros k. induction k as [k IH] using (well_founded_induction lt_wf). intros Hk.
  destruct (Nat.eq_dec k 1) as [->|nk]; [constructor|].
  assert (H : under 1 (k / 2)) by (apply IH; lia).
  destruct (step _ _ H) as [H1 H2].
  assert (k = 2 * (k / 2) \/ k = 2 * (k / 2) + 1) as [E|E] by lia; rewrite E; assumption.
Qed.

Lemma under_ge i j : under i j -> 1 <= i -> i <= j.
Proof. induction 1; lia. Qed.

Lemma under_ordered n v i j : ordered n v -> under i j -> 1 <= i -> j < n -> ~ gt (v i) (v j).
Proof.
  intros Hord H. induction H as [i|i j H IH|i j H IH]; intros Hi Hj.
  - apply gt_irrefl.
  - pose proof (under_ge _ _ H). apply (ngt_trans _ (v (2 * i))); [|apply IH; lia].
    replace i with ((2 * i) / 2) at 1 by lia. apply Hord; lia.
  - pose proof (under_ge _ _ H). apply (ngt_trans _ (v (2 * i + 1))); [|apply IH; lia].
    replace i with ((2 * i + 1) / 2) at 1 by lia. apply Hord; lia.
Qed.

Lemma find_loop_spec q hit e : inv q ->
  (forall c, hit c = true -> cmp c e = 0%Z) -> cmp3 cmp ->
  forall fuel i, pq_size q < fuel + i -> 1 <= fuel -> 1 <= i ->
  exists r, find_loop cmp fuel q hit e i = Ok r /\
   match r with
   | Some x => In x (qel q) /\ hit x = true
   | None => forall j, under i j -> j < pq_size q -> hit (val (pq_d q) j) = false
   end.
Proof.
  intros [Hsz Hst Hl Hnd Hpo Hor] Hhit H3.
  induction fuel as [|fuel IH]; intros i Hf Hf1 Hi; [lia|].
  cbn [find_loop].
  destruct (Nat.leb_spec (pq_size q) i) as [Hge|Hlt].
  { exists None. split; [reflexivity|]. intros j Hu Hj. pose proof (under_ge _ _ Hu); lia. }
  rewrite rd_ok by (try lia; apply Hl; lia). cbn [bind].
  destruct (Z.eqb_spec (cmp (val (pq_d q) i) e) 1) as [g|ng].
  { exists None. split; [reflexivity|]. intros j Hu Hj.
    destruct (hit (val (pq_d q) j)) eqn:Eh; [|reflexivity]. exfalso.
    apply Hhit in Eh. apply H3 in Eh as [Eh _].
    exact (ngt_trans _ _ _ (under_ordered _ _ _ _ Hor Hu Hi Hj) Eh g). }
  destruct (hit (val (pq_d q) i)) eqn:Eh.
  { eexists; split; [reflexivity|]. cbn. split; [|exact Eh].
    apply content_in. exists i; split; [lia|reflexivity]. }
  unfold LEFT, RIGHT.
  destruct (Nat.eq_dec fuel 0) as [->|nf]; [lia|].
  destruct (IH (2 * i) ltac:(lia) ltac:(lia) ltac:(lia)) as (r1 & E1 & H1).
  rewrite E1. cbn [bind]. destruct r1 as [x|].
  { exists (Some x). split; [reflexivity|exact H1]. }
  destruct (IH (2 * i + 1) ltac:(lia) ltac:(lia) ltac:(lia)) as (r2 & E2 & H2).
  rewrite E2. destruct r2 as [x|].
  { exists (Some x). split; [reflexivity|exact H2]. }
  exists None. split; [reflexivity|]. intros j Hu Hj.
  inversion Hu as [|j' Hu' Ej|j' Hu' Ej]; subst.
  - exact Eh.
  - apply H1; assumption.
  - apply H2; assumption.
Qed.

Lemma find_spec q hit e : inv q -> (forall c, hit c = true -> cmp c e = 0%Z) -> cmp3 cmp ->
  exists r, find_loop cmp (S (pq_size q)) q hit e 1 = Ok r /\
   match r with
   | Some x => In x (qel q) /\ hit x = true
   | None => forall x, In x (qel q) -> hit x = false
   end.
Proof.
  intros Hinv Hhit H3.
  destruct (find_loop_spec q hit e Hinv Hhit H3 (S (pq_size q)) 1) as (r & E & H); try lia.
  exists r. split; [exact E|]. destruct r as [x|]; [exact H|].
  intros x Hx. apply content_in in Hx as (k & Hk & <-). apply H; [apply under_one; lia|lia].
Qed.

Lemma inv_pos_exact q : inv q -> pos_exact q.
Proof.
  intros H k e Hk E. pose proof (inv_pos _ H k Hk) as P. unfold val in P. rewrite E in P. exact P.
Qed.

(** pqueue_empty_into *)
Lemma inv_repos q p : inv q -> (forall x, In x (qel q) -> p x = pq_pos q x) ->
  inv (mkPq (pq_size q) (pq_avail q) (pq_step q) (pq_d q) p).
Proof.
  intros [Hsz Hst Hl Hnd Hpo Hor] Hp. constructor; cbn [pq_size pq_avail pq_step pq_d pq_pos]; try assumption.
  intros k Hk. rewrite Hp; [apply Hpo; assumption|]. apply content_in. exists k; split; [assumption|reflexivity].
Qed.

Lemma drain_spec : forall fuel dest src,
  inv dest -> inv src -> pq_size src <= fuel ->
  NoDup (qel dest ++ qel src) ->
  (forall x, pq_pos dest x = pq_pos src x) ->
  exists d' s', drain cmp fuel dest src = Ok (d', s') /\ inv d' /\ pq_size s' = 1 /\ inv s' /\
    Permutation (qel d') (qel dest ++ qel src).
Proof.
  induction fuel as [|fuel IH]; intros dest src Hd Hs Hf Hnd Hpos.
  { pose proof (inv_size _ Hs); lia. }
  cbn [drain].
  destruct (Nat.eq_dec (pq_size src) 1) as [E|n].
  - rewrite pop_empty by assumption. cbn [bind].
    eexists _, _; split; [reflexivity|]. split.
    { apply inv_repos; [exact Hd|]. intros; symmetry; apply Hpos. }
    split; [exact E|]. split; [exact Hs|].
    change (qel (mkPq (pq_size dest) (pq_avail dest) (pq_step dest) (pq_d dest) (pq_pos src))) with (qel dest).
    assert (Eq : qel src = []) by (unfold qel; rewrite E; reflexivity).
    rewrite Eq, app_nil_r. apply Permutation_refl.
  - destruct (pop_spec src Hs) as (s1 & x & Ep & Hi1 & P1 & _ & Hsz1 & Hfr1).
    { pose proof (inv_size _ Hs); lia. }
    rewrite Ep. cbn [bind].
    set (dest0 := mkPq _ _ _ _ (pq_pos s1)).
    assert (Hdisj : forall y, In y (qel dest) -> ~ In y (qel src)).
    { clear -Hnd. induction (qel dest) as [|a l IHl]; cbn in *; [contradiction|].
      apply NoDup_cons_iff in Hnd as [Ha Hnd]. intros y [<-|Hy].
      - intros Hin. apply Ha. apply in_or_app; right; exact Hin.
      - apply IHl; assumption. }
    assert (Hd0 : inv dest0).
    { apply inv_repos; [exact Hd|]. intros y Hy. rewrite Hfr1 by (apply Hdisj; exact Hy).
      symmetry; apply Hpos. }
    assert (Hq0 : qel dest0 = qel dest) by reflexivity.
    assert (Hx : In x (qel src)) by (apply (Permutation_in _ (Permutation_sym P1)); left; reflexivity).
    destruct (insert_spec dest0 x Hd0) as (d1 & Ei & Hd1 & P2 & Hsz2 & Hfr2).
    { rewrite Hq0. intros Hin. exact (Hdisj x Hin Hx). }
    rewrite Ei. cbn [bind].
    set (s2 := mkPq _ _ _ _ (pq_pos d1)).
    assert (Hnds : NoDup (x :: qel s1)).
    { apply (Permutation_NoDup P1). apply (inv_nodup _ Hs). }
    assert (Hs2 : inv s2).
    { apply inv_repos; [exact Hi1|]. intros y Hy.
      rewrite Hfr2; [reflexivity| |].
      - intros ->. apply NoDup_cons_iff in Hnds as [H _]. contradiction.
      - rewrite Hq0. intros Hin. apply (Hdisj y Hin).
        apply (Permutation_in _ (Permutation_sym P1)). right; exact Hy. }
    assert (Hq2 : qel s2 = qel s1) by reflexivity.
    assert (Pall : Permutation (qel d1 ++ qel s2) (qel dest ++ qel src)).
    { rewrite Hq2. eapply Permutation_trans; [apply Permutation_app_tail; exact P2|].
      rewrite Hq0. cbn [app].
      eapply Permutation_trans; [apply Permutation_middle|].
      apply Permutation_app_head. apply Permutation_sym; exact P1. }
    destruct (IH d1 s2) as (d' & s' & Er & Hid & Hss & His & P3).
    + exact Hd1.
    + exact Hs2.
    + change (pq_size s2) with (pq_size s1). lia.
    + exact (Permutation_NoDup (Permutation_sym Pall) Hnd).
    + reflexivity.
    + exists d', s'. split; [exact Er|]. split; [exact Hid|]. split; [exact Hss|]. split; [exact His|].
      exact (Permutation_trans P3 Pall).
Qed.

Lemma empty_into_spec dest src :
  inv dest -> inv src -> NoDup (pq_elems dest ++ pq_elems src) ->
  (forall x, pq_pos dest x = pq_pos src x) ->
  exists d' s', pq_empty_into cmp dest src = Ok (d', s') /\ inv d' /\ inv s' /\
    pq_elems s' = [] /\ Permutation (pq_elems d') (pq_elems dest ++ pq_elems src).
Proof.
  intros Hd Hs Hnd Hpos. rewrite (elems_qel dest Hd), (elems_qel src Hs) in *.
  unfold pq_empty_into. destruct (Nat.leb_spec (pq_size src) (pq_size dest)) as [H|H].
  - destruct (drain_spec (pq_size src) dest src Hd Hs ltac:(lia) Hnd Hpos) as (d' & s' & E & Hid & Hss & His & P).
    exists d', s'. rewrite E. split; [reflexivity|]. split; [exact Hid|]. split; [exact His|].
    rewrite (elems_qel d' Hid), (elems_qel s' His). split; [unfold qel; rewrite Hss; reflexivity|exact P].
  - destruct (drain_spec (pq_size dest) src dest Hs Hd ltac:(lia)) as (d' & s' & E & Hid & Hss & His & P).
    + apply (Permutation_NoDup (Permutation_app_comm _ _)). exact Hnd.
    + intros; symmetry; apply Hpos.
    + rewrite E. cbn [bind]. exists d', s'. split; [reflexivity|]. split; [exact Hid|]. split; [exact His|].
      rewrite (elems_qel d' Hid), (elems_qel s' His). split; [unfold qel; rewrite Hss; reflexivity|].
      eapply Permutation_trans; [exact P|apply Permutation_app_comm].
Qed.

(** pqueue_is_valid *)
Lemma is_valid_true_spec q : inv q -> forall fuel i, pq_size q < fuel + i -> 1 <= fuel -> 1 <= i ->
  subtree_valid cmp fuel q i = Ok true.
Proof.
  intros [Hsz Hst Hl Hnd Hpo Hor].
  induction fuel as [|fuel IH]; intros i Hf Hf1 Hi; [lia|].
  cbn [subtree_valid]. unfold LEFT, RIGHT.
  assert (Hng : forall c, c / 2 = i -> 2 <= c < pq_size q -> ~ gt (val (pq_d q) i) (val (pq_d q) c)).
  { intros c Hc Hr. rewrite <- Hc. apply Hor; lia. }
  destruct (Nat.ltb_spec (2 * i) (pq_size q)) as [H1|H1].
  - rewrite !rd_ok by (try lia; apply Hl; lia). cbn [bind].
    destruct (Z.eqb_spec (cmp (val (pq_d q) i) (val (pq_d q) (2 * i))) 1) as [g|_];
      [exfalso; apply (Hng (2 * i)); [lia|lia|exact g]|].
    rewrite IH by lia. cbn [bind].
    destruct (Nat.ltb_spec (2 * i + 1) (pq_size q)) as [H2|H2]; [|reflexivity].
    rewrite !rd_ok by (try lia; apply Hl; lia). cbn [bind].
    destruct (Z.eqb_spec (cmp (val (pq_d q) i) (val (pq_d q) (2 * i + 1))) 1) as [g|_];
      [exfalso; apply (Hng (2 * i + 1)); [lia|lia|exact g]|].
    apply IH; lia.
  - cbn [bind]. destruct (Nat.ltb_spec (2 * i + 1) (pq_size q)); [lia|reflexivity].
Qed.

Variable eqe : elem -> elem -> bool.

(** One operation of a history. *)
Lemma step_spec q o : inv q -> cmp3 cmp -> pq_pre (pq_elems q) o ->
  exists q' out, pq_step_op cmp eqe q o = Ok (q', out) /\ inv q' /\
    pq_spec cmp eqe (pq_elems q) o (pq_elems q') out.
Proof.
  intros Hinv H3 Hpre. rewrite (elems_qel q Hinv) in *.
  destruct o as [e| |e| | |e|e]; cbn [pq_step_op pq_pre] in *.
  - destruct (insert_spec q e Hinv Hpre) as (q' & E & Hi & P & _).
    rewrite E. eexists _, _; split; [reflexivity|]. split; [exact Hi|].
    rewrite (elems_qel q' Hi). exact P.
  - destruct (Nat.eq_dec (pq_size q) 1) as [E1|n1].
    + rewrite pop_empty by assumption. cbn. eexists _, _; split; [reflexivity|].
      split; [exact Hinv|]. rewrite (elems_qel q Hinv). unfold qel. rewrite E1. split; reflexivity.
    + destruct (pop_spec q Hinv) as (q' & x & E & Hi & P & Hmin & _).
      { pose proof (inv_size _ Hinv); lia. }
      rewrite E. cbn. eexists _, _; split; [reflexivity|]. split; [exact Hi|].
      rewrite (elems_qel q' Hi). split; [exact P|exact Hmin].
  - destruct (remove_spec q e Hinv Hpre) as (q' & E & Hi & P & _).
    rewrite E. eexists _, _; split; [reflexivity|]. split; [exact Hi|].
    rewrite (elems_qel q' Hi). exact P.
  - destruct (peek_spec q Hinv) as [(E1 & E & Hq)|(x & E & Hin & _ & Hmin)]; rewrite E; cbn.
    + eexists _, _; split; [reflexivity|]. split; [exact Hinv|].
      rewrite (elems_qel q Hinv). split; [exact Hq|reflexivity].
    + eexists _, _; split; [reflexivity|]. split; [exact Hinv|].
      rewrite (elems_qel q Hinv). split; [reflexivity|]. split; [exact Hin|exact Hmin].
  - eexists _, _; split; [reflexivity|]. split; [exact Hinv|].
    rewrite (elems_qel q Hinv). cbn. split; [reflexivity|].
    unfold pq_count, qel. rewrite content_length. reflexivity.
  - unfold pq_find_same.
    destruct (find_spec q (fun c => (cmp c e =? 0)%Z) e Hinv) as (r & E & H).
    { intros c Hc. apply Z.eqb_eq; exact Hc. } { exact H3. }
    rewrite E. cbn. eexists _, _; split; [reflexivity|]. split; [exact Hinv|].
    rewrite (elems_qel q Hinv). destruct r as [x|]; (split; [reflexivity|]).
    + destruct H as [H1 H2]. split; [exact H1|apply Z.eqb_eq; exact H2].
    + intros x Hx Hx'. apply H in Hx. rewrite Hx' in Hx. discriminate.
  - unfold pq_find_equal_same.
    destruct (find_spec q (fun c => (cmp c e =? 0)%Z && eqe c e) e Hinv) as (r & E & H).
    { intros c Hc. apply andb_true_iff in Hc as [Hc _]. apply Z.eqb_eq; exact Hc. } { exact H3. }
    rewrite E. cbn. eexists _, _; split; [reflexivity|]. split; [exact Hinv|].
    rewrite (elems_qel q Hinv). destruct r as [x|]; (split; [reflexivity|]).
    + destruct H as [H1 H2]. apply andb_true_iff in H2 as [H2 H2'].
      split; [exact H1|split; [apply Z.eqb_eq; exact H2|exact H2']].
    + intros x Hx [Hx1 Hx2]. apply H in Hx. rewrite Hx1, Hx2 in Hx. discriminate.
Qed.

Lemma run_spec : forall ops q, inv q -> cmp3 cmp -> legal cmp eqe q ops ->
  exists q' outs, pq_run cmp eqe q ops = Ok (q', outs) /\ inv q' /\
    pq_spec_run cmp eqe (pq_elems q) ops (pq_elems q') outs.
Proof.
  induction ops as [|o os IH]; intros q Hinv H3 Hl.
  - exists q, []. split; [reflexivity|]. split; [exact Hinv|constructor].
  - destruct Hl as [Hpre Hl].
    destruct (step_spec q o Hinv H3 Hpre) as (q1 & out & E & Hi & Hs).
    destruct (IH q1 Hi H3 (Hl _ _ E)) as (q2 & outs & E2 & Hi2 & Hs2).
    exists q2, (out :: outs). cbn [pq_run]. rewrite E. cbn [bind fst snd]. rewrite E2. cbn [bind fst snd].
    split; [reflexivity|]. split; [exact Hi2|]. econstructor; eassumption.
Qed.

(** Executable version of [legal], for the concrete examples. *)
Definition pq_preb (s : list elem) (o : pqop) : bool :=
  match o with
  | OInsert e => negb (existsb (Nat.eqb e) s) | ORemove e => existsb (Nat.eqb e) s | _ => true end.
Fixpoint legalb (q : pq) (ops : list pqop) : bool :=
  match ops with
  | [] => true
  | o :: os => pq_preb (pq_elems q) o &&
      match pq_step_op cmp eqe q o with Ok (q1, _) => legalb q1 os | UB => true end
  end.
Lemma existsb_eqb_in e s : existsb (Nat.eqb e) s = true <-> In e s.
Proof.
  rewrite existsb_exists. split.
  - intros (x & Hx & E). apply Nat.eqb_eq in E. subst x; exact Hx.
  - intros H. exists e. split; [exact H|apply Nat.eqb_refl].
Qed.
Lemma legalb_legal : forall ops q, legalb q ops = true -> legal cmp eqe q ops.
Proof.
  induction ops as [|o os IH]; intros q H; [exact I|].
  cbn [legalb] in H. apply andb_true_iff in H as [H1 H2]. split.
  - destruct o; cbn in *; try exact I.
    + apply negb_true_iff in H1. rewrite <- existsb_eqb_in, H1. discriminate.
    + apply existsb_eqb_in; exact H1.
  - intros q1 out E. rewrite E in H2. apply IH; exact H2.
Qed.

End WithCmp.
