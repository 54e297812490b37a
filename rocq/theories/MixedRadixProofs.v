From Verif Require Import Base Pqueue PqueueProofs MixedRadix MixedRadixSpec.
From Coq Require Import Permutation.
Open Scope Z_scope.

Definition good (l : list nat) (radix digits : nat -> Z) : Prop :=
  forall d, In d l -> 1 <= radix d <= INT_MAX /\ 0 <= digits d < radix d.

Lemma c_int_ok z : - INT_MAX - 1 <= z <= INT_MAX -> c_int z = Ok z.
Proof. intros H. unfold c_int. destruct (Z.leb_spec (- INT_MAX - 1) z), (Z.leb_spec z INT_MAX); try lia. reflexivity. Qed.

Lemma value_range l radix digits : good l radix digits -> 0 <= value l radix digits < product l radix.
Proof.
  induction l as [|d r IH]; intros H; cbn [value product]; [lia|].
  destruct (H d (or_introl eq_refl)) as [H1 H2].
  specialize (IH (fun x Hx => H x (or_intror Hx))). nia.
Qed.
Lemma value_ext l radix f g : (forall d, In d l -> f d = g d) -> value l radix f = value l radix g.
Proof.
  induction l as [|d r IH]; intros H; [reflexivity|]. cbn [value].
  rewrite (H d (or_introl eq_refl)), IH; [reflexivity|]. intros x Hx; apply H; right; exact Hx.
Qed.
Lemma value_inj l radix f g : good l radix f -> good l radix g -> value l radix f = value l radix g ->
  forall d, In d l -> f d = g d.
Proof.
  induction l as [|d r IH]; intros Hf Hg E x Hx; [destruct Hx|]. cbn [value] in E.
  destruct (Hf d (or_introl eq_refl)) as [R F]. destruct (Hg d (or_introl eq_refl)) as [_ G].
  assert (Eq : f d = g d /\ value r radix f = value r radix g).
  { assert (value r radix f = value r radix g) by nia. split; [nia|assumption]. }
  destruct Hx as [<-|Hx]; [apply Eq|].
  apply IH; try assumption; [intros y Hy; apply Hf; right; exact Hy|intros y Hy; apply Hg; right; exact Hy|apply Eq].
Qed.

(** The loop adds one modulo the product; [l0] are the digits already wrapped. *)
Lemma loop_ok radix : forall l i digits, NoDup l -> good l radix digits ->
  (l = [] -> digits (i - 1)%nat = 0) ->
  exists ds, mr_loop l i radix digits = Ok ds /\ good l radix ds /\
    (forall x, ~ In x l -> x <> (i + length l - 1)%nat -> ds x = digits x) /\
    (l <> [] -> value l radix digits + 1 < product l radix ->
       value l radix ds = value l radix digits + 1 /\ forall x, ~ In x l -> ds x = digits x) /\
    (value l radix digits + 1 = product l radix -> (forall x, In x l -> ds x = 0) /\ ds (i + length l - 1)%nat = 0).
Proof.
  induction l as [|d r IH]; intros i digits Hnd Hg Hz; cbn [mr_loop].
  - eexists; split; [reflexivity|]. cbn [length] in *.
    split; [intros x []|]. split; [|split].
    + intros x _ Hx. apply upd_neq. lia.
    + intros H; contradiction.
    + intros _. split; [intros x []|]. rewrite Nat.add_0_r. apply upd_eq.
  - destruct (Hg d (or_introl eq_refl)) as [HR HD]. rewrite c_int_ok by lia. cbn [bind].
    apply NoDup_cons_iff in Hnd as [Hd Hnd].
    assert (Hgr : good r radix digits) by (intros x Hx; apply Hg; right; exact Hx).
    pose proof (value_range r radix digits Hgr) as Hvr. cbn [value product length].
    destruct (Z.geb_spec (digits d + 1) (radix d)) as [Hge|Hlt].
    + assert (Hgr' : good r radix (upd digits d 0)).
      { intros x Hx. rewrite upd_neq by (intros ->; contradiction). apply Hgr; exact Hx. }
      assert (Hv : value r radix (upd digits d 0) = value r radix digits).
      { apply value_ext. intros x Hx. apply upd_neq. intros ->; contradiction. }
      destruct r as [|d' r'].
      * cbn [mr_loop]. cbn [value product length].
        eexists; split; [reflexivity|].
        assert (Hds : forall x, upd (upd digits d 0) (S i - 1)%nat 0 x = if (Nat.eqb x i || Nat.eqb x d)%bool then 0 else digits x).
        { intros x. unfold upd. replace (S i - 1)%nat with i by lia.
          destruct (Nat.eqb x i), (Nat.eqb x d); reflexivity. }
        split; [|split; [|split]].
        -- intros x [<-|[]]. rewrite Hds, Nat.eqb_refl, orb_true_r. lia.
        -- intros x Hx Hx2. rewrite Hds. destruct (Nat.eqb_spec x i); [lia|]. destruct (Nat.eqb_spec x d) as [->|]; [exfalso; apply Hx; left; reflexivity|]. reflexivity.
        -- intros _ Hlt. lia.
        -- intros _. split; [intros x [<-|[]]|]; rewrite Hds; rewrite ?Nat.eqb_refl, ?orb_true_r; [reflexivity|].
           replace (i + 1 - 1)%nat with i by lia. rewrite Nat.eqb_refl. reflexivity.
      * destruct (IH (S i) (upd digits d 0) Hnd Hgr') as (ds & E & G & Hout & Hinc & Hwrap); [discriminate|].
        rewrite E. rewrite Hv in Hinc, Hwrap.
        assert (Hdd : forall q : nat, (S i + length (d' :: r') - 1 = i + S (length (d' :: r')) - 1)%nat) by (intros; lia).
        rewrite (Hdd 0%nat) in *. clear Hdd.
        exists ds. split; [reflexivity|].
        assert (Hcase : value (d' :: r') radix digits + 1 < product (d' :: r') radix \/
                        value (d' :: r') radix digits + 1 = product (d' :: r') radix) by lia.
        assert (Hdsd : ds d = 0).
        { destruct Hcase as [Hc|Hc].
          - destruct (Hinc ltac:(discriminate) Hc) as [_ Ho]. rewrite Ho by exact Hd. apply upd_eq.
          - destruct (Hwrap Hc) as [_ Hw2].
            destruct (Nat.eq_dec d (i + S (length (d' :: r')) - 1)) as [Ee|Hne]; [rewrite Ee; exact Hw2|].
            rewrite Hout by assumption. apply upd_eq. }
        split; [|split; [|split]].
        -- intros x [<-|Hx]; [rewrite Hdsd; lia|apply G; exact Hx].
        -- intros x Hx Hx2. rewrite Hout; [|intros Hi; apply Hx; right; exact Hi|exact Hx2].
           apply upd_neq. intros ->; apply Hx; left; reflexivity.
        -- intros _ Hl. assert (Hc : value (d' :: r') radix digits + 1 < product (d' :: r') radix) by nia.
           destruct (Hinc ltac:(discriminate) Hc) as [Hval Ho].
           rewrite Hdsd, Hval. split; [nia|]. intros x Hx. rewrite Ho; [|intros Hi; apply Hx; right; exact Hi].
           apply upd_neq. intros ->; apply Hx; left; reflexivity.
        -- intros Hl. assert (Hc : value (d' :: r') radix digits + 1 = product (d' :: r') radix) by nia.
           destruct (Hwrap Hc) as [Hw1 Hw2]. split; [|exact Hw2]. intros x [<-|Hx]; [exact Hdsd|apply Hw1; exact Hx].
    + eexists; split; [reflexivity|].
      assert (Hv : value r radix (upd digits d (digits d + 1)) = value r radix digits).
      { apply value_ext. intros x Hx. apply upd_neq. intros ->; contradiction. }
      split; [|split; [|split]].
      * intros x [<-|Hx]; [rewrite upd_eq; lia|]. rewrite upd_neq by (intros ->; contradiction). apply Hgr; exact Hx.
      * intros x Hx _. apply upd_neq. intros ->; apply Hx; left; reflexivity.
      * intros _ _. rewrite upd_eq, Hv. split; [lia|]. intros x Hx. apply upd_neq. intros ->; apply Hx; left; reflexivity.
      * intros Hl. exfalso. nia.
Qed.

Lemma good_perm m : mr_ok m -> good (mr_perm m) (mr_radix m) (mr_digits m).
Proof.
  intros H d Hd. apply (Permutation_in _ (ok_perm _ H)) in Hd. apply in_seq in Hd.
  split; [apply (ok_radix _ H); lia|apply (ok_digit _ H); lia].
Qed.

Lemma value_zero l radix f : (forall x, In x l -> f x = 0) -> value l radix f = 0.
Proof.
  induction l as [|d r IH]; intros H; [reflexivity|]. cbn [value]. rewrite (H d (or_introl eq_refl)), IH; [lia|].
  intros x Hx; apply H; right; exact Hx.
Qed.

Lemma incr_ok m : mr_ok m -> exists m', mr_incr m = Ok m' /\ mr_ok m' /\
  mr_size m' = mr_size m /\ mr_radix m' = mr_radix m /\ mr_perm m' = mr_perm m /\
  value (mr_perm m) (mr_radix m) (mr_digits m') =
    (value (mr_perm m) (mr_radix m) (mr_digits m) + 1) mod product (mr_perm m) (mr_radix m).
Proof.
  intros H. unfold mr_incr. pose proof (ok_size _ H) as Hs. destruct (Nat.eqb_spec (mr_size m) 0); [lia|].
  assert (Hnd : NoDup (mr_perm m)) by (eapply Permutation_NoDup; [apply Permutation_sym, (ok_perm _ H)|apply seq_NoDup]).
  assert (Hlen : length (mr_perm m) = mr_size m) by (rewrite (Permutation_length (ok_perm _ H)); apply seq_length).
  destruct (loop_ok (mr_radix m) (mr_perm m) 0 (mr_digits m) Hnd (good_perm m H)) as (ds & E & G & Hout & Hinc & Hwrap).
  { intros E. rewrite E in Hlen. cbn in Hlen. lia. }
  rewrite E. cbn [bind]. eexists; split; [reflexivity|]. cbn [mr_size mr_radix mr_perm mr_digits].
  split; [constructor; cbn [mr_size mr_radix mr_perm mr_digits]; try apply H|].
  - intros i Hi. apply G. apply (Permutation_in _ (Permutation_sym (ok_perm _ H))). apply in_seq; lia.
  - repeat split. pose proof (value_range _ _ _ (good_perm m H)) as Hv.
    destruct (Z.eq_dec (value (mr_perm m) (mr_radix m) (mr_digits m) + 1) (product (mr_perm m) (mr_radix m))) as [Ew|Ew].
    + rewrite Ew, Z_mod_same_full. apply value_zero. apply Hwrap; exact Ew.
    + rewrite Z.mod_small by lia. apply Hinc; [|lia]. intros En. rewrite En in Hlen. cbn in Hlen. lia.
Qed.

Lemma incrs_ok : forall n m, mr_ok m -> exists m', mr_incrs n m = Ok m' /\ mr_ok m' /\
  mr_size m' = mr_size m /\ mr_radix m' = mr_radix m /\ mr_perm m' = mr_perm m /\
  value (mr_perm m) (mr_radix m) (mr_digits m') =
    (value (mr_perm m) (mr_radix m) (mr_digits m) + Z.of_nat n) mod product (mr_perm m) (mr_radix m).
Proof.
  induction n as [|n IH]; intros m H; cbn [mr_incrs].
  - exists m. split; [reflexivity|]. split; [exact H|]. repeat split.
    rewrite Z.add_0_r. rewrite Z.mod_small; [reflexivity|]. apply value_range, good_perm, H.
  - destruct (incr_ok m H) as (m1 & E & H1 & Es & Er & Ep & Ev). rewrite E. cbn [bind].
    destruct (IH m1 H1) as (m2 & E2 & H2 & Es2 & Er2 & Ep2 & Ev2).
    exists m2. split; [exact E2|]. split; [exact H2|]. rewrite Es, Er, Ep in *. repeat split; try congruence.
    rewrite Ev2, Ev, Zplus_mod_idemp_l. f_equal. lia.
Qed.

Lemma same_digits_value m m' : mr_ok m -> mr_ok m' -> mr_size m' = mr_size m -> mr_radix m' = mr_radix m -> mr_perm m' = mr_perm m ->
  (same_digits m m' <-> value (mr_perm m) (mr_radix m) (mr_digits m) = value (mr_perm m) (mr_radix m) (mr_digits m')).
Proof.
  intros H H' Es Er Ep. split.
  - intros Hs. apply value_ext. intros d Hd. apply Hs. apply (Permutation_in _ (ok_perm _ H)) in Hd. apply in_seq in Hd. lia.
  - intros Ev i Hi. eapply value_inj; [apply good_perm, H| |exact Ev|].
    + rewrite <- Er, <- Ep. apply good_perm, H'.
    + apply (Permutation_in _ (Permutation_sym (ok_perm _ H))). apply in_seq; lia.
Qed.

Lemma product_perm l l' radix : Permutation l l' -> product l radix = product l' radix.
Proof. induction 1; cbn [product]; try lia; try congruence. Qed.
Lemma product_pos m : mr_ok m -> 1 <= product (mr_perm m) (mr_radix m).
Proof. intros H. pose proof (value_range _ _ _ (good_perm m H)). lia. Qed.

(** The sum loop. *)
Lemma sum_ok radix digits : forall k i result factor,
  good (seq i k) radix digits -> 0 <= result < factor -> factor * product (seq i k) radix <= INT_MAX ->
  mr_sum k i radix digits result factor = Ok (result + factor * value (seq i k) radix digits).
Proof.
  induction k as [|k IH]; intros i result factor Hg Hr Hb; cbn [mr_sum seq value product] in *.
  - f_equal. lia.
  - destruct (Hg i (or_introl eq_refl)) as [HR HD].
    assert (Hg' : good (seq (S i) k) radix digits) by (intros x Hx; apply Hg; right; exact Hx).
    pose proof (value_range _ _ _ Hg') as Hv.
    assert (Hf : factor * radix i <= INT_MAX) by nia.
    assert (Hx : factor * digits i + factor <= factor * radix i) by nia.
    assert (H0 : 0 <= factor * digits i) by nia.
    rewrite c_int_ok by (unfold INT_MAX in *; lia). cbn [bind]. rewrite c_int_ok by (unfold INT_MAX in *; lia). cbn [bind].
    rewrite c_int_ok by (unfold INT_MAX in *; lia). cbn [bind].
    rewrite IH; [f_equal; ring|exact Hg'|lia|nia].
Qed.

Lemma good_seq m i k : mr_ok m -> (i + k <= mr_size m)%nat -> good (seq i k) (mr_radix m) (mr_digits m).
Proof. intros H Hi d Hd. apply in_seq in Hd. split; [apply (ok_radix _ H); lia|apply (ok_digit _ H); lia]. Qed.

Lemma product_app l1 l2 radix : product (l1 ++ l2) radix = product l1 radix * product l2 radix.
Proof. induction l1 as [|d r IH]; cbn [app product]; [lia|]. rewrite IH. ring. Qed.
Lemma value_app l1 l2 radix f : value (l1 ++ l2) radix f = value l1 radix f + product l1 radix * value l2 radix f.
Proof. induction l1 as [|d r IH]; cbn [app value product]; [lia|]. rewrite IH. ring. Qed.
Lemma product_good_pos l radix f : good l radix f -> 1 <= product l radix.
Proof. intros H. pose proof (value_range _ _ _ H). lia. Qed.

Lemma parent_ok m n : mr_ok m -> product (seq 0 (mr_size m)) (mr_radix m) <= INT_MAX ->
  mr_parent m n = Ok (value (seq n (mr_size m - n)) (mr_radix m) (mr_digits m)).
Proof.
  intros H Hb. unfold mr_parent. pose proof (ok_size _ H). destruct (Nat.eqb_spec (mr_size m) 0); [lia|].
  destruct (le_lt_dec n (mr_size m)) as [Hn|Hn].
  - rewrite sum_ok; [f_equal; lia|apply good_seq; [exact H|lia]|lia|].
    replace (mr_size m) with (n + (mr_size m - n))%nat in Hb by lia. rewrite seq_app, product_app in Hb.
    rewrite Nat.add_0_l in Hb.
    pose proof (product_good_pos _ _ _ (good_seq m 0 n H ltac:(lia))).
    pose proof (product_good_pos _ _ _ (good_seq m n (mr_size m - n) H ltac:(lia))). nia.
  - replace (mr_size m - n)%nat with 0%nat by lia. reflexivity.
Qed.

Lemma parent_div m n : mr_ok m -> (n <= mr_size m)%nat ->
  value (seq n (mr_size m - n)) (mr_radix m) (mr_digits m) =
  value (seq 0 (mr_size m)) (mr_radix m) (mr_digits m) / product (seq 0 n) (mr_radix m).
Proof.
  intros H Hn. replace (mr_size m) with (n + (mr_size m - n))%nat at 2 by lia.
  rewrite seq_app, value_app, Nat.add_0_l.
  pose proof (value_range _ _ _ (good_seq m 0 n H ltac:(lia))) as Hv.
  rewrite (Z.mul_comm (product _ _)), Z.div_add by lia. rewrite Z.div_small by lia. lia.
Qed.
