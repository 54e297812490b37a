(** Lemmas for C29 and C30. *)
From Coq Require Import Sorted Permutation.
From Verif Require Import Base Pqueue PqueueProofs Multiport MultiportSpec.
From Coq Require Import Arith.
Open Scope Z_scope.

(** *** Sorting *)
Lemma insert_perm x l : Permutation (x :: l) (insert_sorted x l).
Proof. induction l as [|y l IH]; cbn; [reflexivity|]. destruct (x <=? y)%nat; [reflexivity|]. rewrite perm_swap, IH. reflexivity. Qed.
Lemma sort_perm l : Permutation l (sort_nat l).
Proof. induction l as [|x l IH]; cbn; [reflexivity|]. rewrite IH at 1. apply insert_perm. Qed.
Lemma insert_sorted_ok x l : StronglySorted le l -> StronglySorted le (insert_sorted x l).
Proof.
  induction l as [|y l IH]; intros H; cbn; [repeat constructor|]. destruct (x <=? y)%nat eqn:E.
  - apply Nat.leb_le in E. constructor; [exact H|]. inversion H as [|? ? H1 H2]; subst. constructor; [exact E|]. eapply Forall_impl; [|exact H2]. cbn. lia.
  - apply Nat.leb_gt in E. inversion H as [|? ? H1 H2]; subst. constructor; [apply IH, H1|]. apply Forall_forall. intros z Hz. apply (Permutation_in _ (Permutation_sym (insert_perm x l))) in Hz.
    rewrite Forall_forall in H2. destruct Hz as [<-|Hz]; [lia|apply H2, Hz].
Qed.
Lemma sort_sorted l : StronglySorted le (sort_nat l).
Proof. induction l as [|x l IH]; cbn; [constructor|apply insert_sorted_ok, IH]. Qed.
Lemma strict l : StronglySorted le l -> NoDup l -> StronglySorted lt l.
Proof.
  induction 1 as [|x l H IH F]; intros N; [constructor|]. apply NoDup_cons_iff in N. destruct N as (N1 & N2). constructor; [apply IH, N2|].
  rewrite Forall_forall in *. intros y Hy. specialize (F y Hy). assert (x <> y) by (intros ->; contradiction). lia.
Qed.
Lemma sorted_unique l1 : forall l2, StronglySorted lt l1 -> StronglySorted lt l2 -> (forall x, In x l1 <-> In x l2) -> l1 = l2.
Proof.
  induction l1 as [|x l1 IH]; intros [|y l2] S1 S2 H; [reflexivity|destruct (proj2 (H y)); left; reflexivity|destruct (proj1 (H x)); left; reflexivity|].
  inversion S1 as [|? ? S1' F1]; subst. inversion S2 as [|? ? S2' F2]; subst. rewrite Forall_forall in F1, F2.
  assert (x = y).
  { destruct (proj1 (H x) (or_introl eq_refl)) as [->|K1]; [reflexivity|]. destruct (proj2 (H y) (or_introl eq_refl)) as [->|K2]; [reflexivity|]. apply F2 in K1. apply F1 in K2. lia. }
  subst y. f_equal. apply IH; [exact S1'|exact S2'|]. intros z. split; intros K.
  - destruct (proj1 (H z) (or_intror K)) as [<-|Q]; [|exact Q]. apply F1 in K. lia.
  - destruct (proj2 (H z) (or_intror K)) as [<-|Q]; [|exact Q]. apply F2 in K. lia.
Qed.
Lemma seq_filter_sorted p a n : StronglySorted lt (filter p (seq a n)).
Proof.
  revert a. induction n as [|n IH]; intros a; cbn; [constructor|]. destruct (p a); [|apply IH]. constructor; [apply IH|]. apply Forall_forall. intros x Hx. apply filter_In in Hx. destruct Hx as (Hx & _). apply in_seq in Hx. lia.
Qed.

(** *** The linear iteration *)
Lemma scan_cons p : forall n start, match filter p (seq start n) with
  | [] => scan p start n = -1
  | c :: r => scan p start n = Z.of_nat c /\ (start <= c < start + n)%nat /\ r = filter p (seq (S c) (start + n - S c))
  end.
Proof.
  induction n as [|n IH]; intros start; cbn [seq filter scan]; [reflexivity|]. destruct (p start) eqn:E.
  - split; [reflexivity|]. split; [lia|]. f_equal. f_equal. lia.
  - specialize (IH (S start)). destruct (filter p (seq (S start) n)); [exact IH|]. destruct IH as (A & B & C). split; [exact A|]. split; [lia|]. rewrite C. f_equal. f_equal. lia.
Qed.
Lemma repeat_then k : then_minus_one [] k = repeat (-1) k.
Proof. unfold then_minus_one. cbn. rewrite <- (repeat_length (-1) k) at 1. apply firstn_all. Qed.
Lemma then_cons c l k : then_minus_one (c :: l) (S k) = Z.of_nat c :: then_minus_one l k.
Proof.
  unfold then_minus_one. cbn [map app firstn]. f_equal. rewrite !firstn_app. f_equal. rewrite map_length.
  destruct (le_lt_dec k (length l)) as [L|L]; [replace (k - length l)%nat with 0%nat by lia; reflexivity|].
  assert (G : forall i j, (i <= j)%nat -> firstn i (repeat (-1) j) = repeat (-1) i) by (intros i; induction i as [|i IHi]; intros [|j] Hij; cbn; [reflexivity|reflexivity|lia|f_equal; apply IHi; lia]).
  rewrite !G by lia. reflexivity.
Qed.

Definition linear_mode (m : mport) : Prop := match mp_sparse m with None => True | Some sp => sp_size sp < 0 end.
Lemma exhausted m idx : forall k, 0 <= idx -> iter_calls m (mkIter (-1) idx) k = Ok (repeat (-1) k).
Proof.
  induction k as [|k IH]; intros H; [reflexivity|]. cbn [iter_calls]. unfold iter_next. cbn [it_idx it_next].
  replace (idx <? 0) with false by lia. cbn [orb Z.ltb]. cbn. rewrite IH by exact H. reflexivity.
Qed.
Lemma linear_calls m : linear_mode m -> forall k c, (Z.of_nat c < mp_width m) ->
  iter_calls m (mkIter (Z.of_nat c) 0) k = Ok (then_minus_one (filter (mp_pres m) (seq (S c) (Z.to_nat (mp_width m) - S c))) k).
Proof.
  intros L. induction k as [|k IH]; intros c H; [reflexivity|]. cbn [iter_calls]. unfold iter_next at 1. cbn [it_idx it_next].
  replace (Z.of_nat c <? 0) with false by lia. replace (mp_width m <=? 0) with false by lia. cbn [orb Z.ltb Z.compare]. 
  replace (Z.to_nat (Z.of_nat c + 1)) with (S c) by lia. replace (Z.to_nat (mp_width m - (Z.of_nat c + 1))) with (Z.to_nat (mp_width m) - S c)%nat by lia.
  set (n := scan _ _ _).
  assert (E : match mp_sparse m with
     | Some sp => if 0 <=? sp_size sp then if sp_size sp <=? 1 then Ok (-1, mkIter (-1) 1) else match nth_error (sp_chan sp) (Z.to_nat 1) with Some d => Ok (Z.of_nat d, mkIter (Z.of_nat d) 1) | None => UB end else Ok (n, mkIter n 0)
     | None => Ok (n, mkIter n 0) end = Ok (n, mkIter n 0)).
  { unfold linear_mode in L. destruct (mp_sparse m) as [sp|]; [|reflexivity]. replace (0 <=? sp_size sp) with false by lia. reflexivity. }
  change (0 + 1) with 1. rewrite E. cbn [bind fst snd]. pose proof (scan_cons (mp_pres m) (Z.to_nat (mp_width m) - S c) (S c)) as Sc.
  destruct (filter (mp_pres m) (seq (S c) (Z.to_nat (mp_width m) - S c))) as [|d r].
  - fold n in Sc. rewrite Sc. rewrite exhausted by lia. rewrite repeat_then. reflexivity.
  - destruct Sc as (S1 & S2 & S3). fold n in S1. rewrite S1, IH by lia. rewrite S3. cbn [bind]. rewrite then_cons. do 4 f_equal. f_equal. lia.
Qed.
Lemma linear_all m k : linear_mode m -> iterate m k = Ok (then_minus_one (present_channels m) k).
Proof.
  intros L. unfold iterate, iter_init, present_channels. destruct (mp_width m <=? 0) eqn:Ew.
  - cbn [bind fst snd]. replace (Z.to_nat (mp_width m)) with 0%nat by lia. cbn. rewrite repeat_then. destruct k as [|k]; [reflexivity|]. cbn [iter_calls]. unfold iter_next at 1. cbn. rewrite exhausted by lia. reflexivity.
  - assert (E : forall (A : Type) (x y : A), match mp_sparse m with Some sp => if 0 <=? sp_size sp then x else y | None => y end = y).
    { intros A x y. unfold linear_mode in L. destruct (mp_sparse m) as [sp|]; [|reflexivity]. replace (0 <=? sp_size sp) with false by lia. reflexivity. }
    set (n := scan _ _ _).
    assert (E2 : forall x : sparse -> res (mport * iter), match mp_sparse m with Some sp => if 0 <=? sp_size sp then x sp else Ok (m, mkIter n (-1)) | None => Ok (m, mkIter n (-1)) end = Ok (m, mkIter n (-1))).
    { intros x. unfold linear_mode in L. destruct (mp_sparse m) as [sp|]; [|reflexivity]. replace (0 <=? sp_size sp) with false by lia. reflexivity. }
    rewrite (E2 (fun sp => _)). cbn [bind fst snd]. destruct k as [|k]; [reflexivity|]. cbn [iter_calls]. unfold iter_next at 1. cbn [it_idx it_next Z.ltb Z.compare bind fst snd].
    pose proof (scan_cons (mp_pres m) (Z.to_nat (mp_width m)) 0) as Sc. fold n in Sc. destruct (filter (mp_pres m) (seq 0 (Z.to_nat (mp_width m)))) as [|d r].
    + rewrite Sc, exhausted by lia. cbn [bind]. rewrite repeat_then. reflexivity.
    + destruct Sc as (S1 & S2 & S3). rewrite S1, linear_calls by (try exact L; lia). cbn [bind]. rewrite then_cons, S3. cbn [Nat.add]. reflexivity.
Qed.

(** *** The sparse iteration *)
Lemma sparse_calls m sp : mp_sparse m = Some sp -> sp_size sp <= mp_width m -> (Z.to_nat (sp_size sp) <= length (sp_chan sp))%nat ->
  forall k i c, nth_error (sp_chan sp) i = Some c -> Z.of_nat i < sp_size sp ->
  iter_calls m (mkIter (Z.of_nat c) (Z.of_nat i)) k = Ok (then_minus_one (skipn (S i) (firstn (Z.to_nat (sp_size sp)) (sp_chan sp))) k).
Proof.
  intros Hs Hw Hl. induction k as [|k IH]; intros i c Hc Hi; [reflexivity|]. cbn [iter_calls]. unfold iter_next at 1. cbn [it_idx it_next].
  replace (Z.of_nat i <? 0) with false by lia. replace (Z.of_nat c <? 0) with false by lia. replace (mp_width m <=? 0) with false by lia. replace (mp_width m <=? Z.of_nat i) with false by lia. cbn [orb].
  rewrite Hs. replace (0 <=? sp_size sp) with true by lia. destruct (sp_size sp <=? Z.of_nat i + 1) eqn:E.
  - cbn [bind fst snd]. rewrite exhausted by lia. cbn [bind]. rewrite skipn_all2 by (rewrite firstn_length; lia). rewrite repeat_then. reflexivity.
  - replace (Z.to_nat (Z.of_nat i + 1)) with (S i) by lia. destruct (nth_error (sp_chan sp) (S i)) as [d|] eqn:Ed; [|apply nth_error_None in Ed; lia]. cbn [bind fst snd].
    replace (Z.of_nat i + 1) with (Z.of_nat (S i)) by lia. rewrite (IH (S i) d Ed) by lia. cbn [bind].
    assert (K : skipn (S i) (firstn (Z.to_nat (sp_size sp)) (sp_chan sp)) = d :: skipn (S (S i)) (firstn (Z.to_nat (sp_size sp)) (sp_chan sp))).
    { assert (Kd : nth_error (firstn (Z.to_nat (sp_size sp)) (sp_chan sp)) (S i) = Some d).
      { rewrite <- (firstn_skipn (Z.to_nat (sp_size sp)) (sp_chan sp)) in Ed. rewrite nth_error_app1 in Ed; [exact Ed|]. rewrite firstn_length. lia. }
      clear - Kd. revert Kd. generalize (firstn (Z.to_nat (sp_size sp)) (sp_chan sp)). generalize (S i). clear. intros i l. revert i. induction l as [|x l IH]; intros [|i] H; cbn in *; [discriminate|discriminate|injection H as ->; reflexivity|apply IH, H]. }
    rewrite K, then_cons. reflexivity.
Qed.

(** State after setting channels. *)
Definition after_sets (m0 : mport) (cs : list nat) : mport := fold_left set_present cs m0.
Definition listed (m : mport) (cs : list nat) : Prop :=
  (forall c, mp_pres m c = true <-> In c cs) /\
  match mp_sparse m with
  | None => True
  | Some sp => length (sp_chan sp) = sp_cap sp /\ Z.of_nat (sp_cap sp) <= mp_width m /\
      (sp_size sp = -1 \/ (sp_size sp = Z.of_nat (length cs) /\ (length cs <= sp_cap sp)%nat /\ firstn (length cs) (sp_chan sp) = cs))
  end.
Lemma set_nth_length l i x : length (set_nth l i x) = length l.
Proof. revert i. induction l as [|y l IH]; intros [|i]; cbn; auto. Qed.
Lemma set_nth_first l : forall i x, (i < length l)%nat -> firstn (S i) (set_nth l i x) = firstn i l ++ [x].
Proof. induction l as [|y l IH]; intros [|i] x H; cbn [length] in H; [lia|lia|reflexivity|]. cbn [set_nth]. rewrite !firstn_cons, IH by lia. reflexivity. Qed.
Lemma listed_set m cs c : listed m cs -> listed (set_present m c) (cs ++ [c]) /\ mp_width (set_present m c) = mp_width m.
Proof.
  intros (A & B). split; [|reflexivity]. split.
  - intros d. cbn. rewrite in_app_iff. cbn. destruct (Nat.eq_dec d c) as [->|N]; [rewrite upd_eq; tauto|rewrite upd_neq by congruence; rewrite A; intuition congruence].
  - cbn [set_present mp_sparse mp_width]. destruct (mp_sparse m) as [sp|]; [|exact I]. destruct B as (B1 & B2 & B3). unfold record. destruct (0 <=? sp_size sp) eqn:E0.
    + destruct B3 as [B3|(B3 & B4 & B5)]; [lia|]. destruct (Z.of_nat (sp_cap sp) <=? sp_size sp) eqn:E1; cbn.
      * auto.
      * split; [rewrite set_nth_length; exact B1|]. split; [exact B2|]. right. rewrite app_length. cbn [length]. split; [lia|]. split; [lia|].
        replace (Z.to_nat (sp_size sp)) with (length cs) by lia. replace (length cs + 1)%nat with (S (length cs)) by lia. rewrite set_nth_first by lia. rewrite B5. reflexivity.
    + split; [exact B1|]. split; [exact B2|]. left. lia.
Qed.
Lemma listed_after m0 : fresh m0 -> forall cs, listed (after_sets m0 cs) cs /\ mp_width (after_sets m0 cs) = mp_width m0.
Proof.
  intros (F1 & F2) cs. induction cs as [|c cs IH] using rev_ind.
  - cbn. split; [|reflexivity]. split; [intros c; rewrite F1; split; [discriminate|intros []]|]. destruct (mp_sparse m0) as [sp|]; [|exact I]. destruct F2 as (A & B & C). split; [exact B|]. split; [exact C|]. right. cbn. split; [exact A|]. split; [lia|reflexivity].
  - unfold after_sets in *. rewrite fold_left_app. cbn [fold_left]. destruct IH as (IH1 & IH2). destruct (listed_set _ _ c IH1) as (A & B). split; [exact A|congruence].
Qed.
Lemma sparse_all m cs k : listed m cs -> NoDup cs -> (forall c, In c cs -> Z.of_nat c < mp_width m) -> iterate m k = Ok (then_minus_one (present_channels m) k).
Proof.
  intros (A & B) N Hr. destruct (mp_sparse m) as [sp|] eqn:Es; [|apply linear_all; unfold linear_mode; rewrite Es; exact I]. destruct B as (B1 & B2 & [B3|(B3 & B4 & B5)]); [apply linear_all; unfold linear_mode; rewrite Es; lia|].
  assert (Hp : present_channels m = sort_nat cs).
  { apply sorted_unique; [apply seq_filter_sorted| |].
    - apply strict; [apply sort_sorted|]. apply (Permutation_NoDup (sort_perm cs) N).
    - intros x. unfold present_channels. rewrite filter_In, in_seq, A. split.
      + intros (_ & K). apply (Permutation_in _ (sort_perm cs)), K.
      + intros K. apply (Permutation_in _ (Permutation_sym (sort_perm cs))) in K. split; [|exact K]. specialize (Hr x K). lia. }
  rewrite Hp. unfold iterate, iter_init. destruct (mp_width m <=? 0) eqn:Ew.
  - destruct cs as [|c cs]; [|cbn in *; lia]. cbn [bind fst snd sort_nat fold_right]. rewrite repeat_then. destruct k as [|k]; [reflexivity|]. cbn [iter_calls]. unfold iter_next at 1. cbn. rewrite exhausted by lia. reflexivity.
  - rewrite Es. replace (0 <=? sp_size sp) with true by lia. destruct (0 <? sp_size sp) eqn:E0.
    + set (sp1 := if 1 <? sp_size sp then _ else sp).
      assert (H1 : sp_size sp1 = sp_size sp /\ length (sp_chan sp1) = length (sp_chan sp) /\ firstn (length cs) (sp_chan sp1) = sort_nat cs).
      { subst sp1. destruct (1 <? sp_size sp) eqn:E1.
        - cbn [sp_size sp_chan]. split; [reflexivity|]. unfold sort_first. replace (Z.to_nat (sp_size sp)) with (length cs) by lia. rewrite B5.
          assert (L : length (sort_nat cs) = length cs) by (symmetry; apply Permutation_length, sort_perm). split.
          + rewrite app_length, L, skipn_length. lia.
          + rewrite firstn_app, L, Nat.sub_diag. cbn. rewrite app_nil_r, <- L. apply firstn_all.
        - split; [reflexivity|]. split; [reflexivity|]. rewrite B5. destruct cs as [|c [|d cs]]; [reflexivity|reflexivity|cbn in B3; lia]. }
      clearbody sp1. destruct H1 as (H1 & H2 & H3). destruct (sp_chan sp1) as [|c l] eqn:Ec; [cbn in H2; lia|]. cbn [nth_error bind fst snd].
      destruct k as [|k]; [reflexivity|]. cbn [iter_calls]. unfold iter_next at 1. cbn [it_idx it_next Z.ltb Z.compare bind fst snd].
      change (mkIter (Z.of_nat c) 0) with (mkIter (Z.of_nat c) (Z.of_nat 0)). rewrite (sparse_calls _ sp1) with (c := c); cbn [mp_sparse mp_width].
      * cbn [bind]. rewrite H1, Ec. replace (Z.to_nat (sp_size sp)) with (length cs) by lia. rewrite H3.
        assert (K : exists r, sort_nat cs = c :: r) by (rewrite <- H3; destruct cs; [cbn in B3; lia|]; cbn; eauto). destruct K as (r & ->). rewrite then_cons. reflexivity.
      * reflexivity.
      * lia.
      * rewrite Ec, H2. lia.
      * rewrite Ec. reflexivity.
      * lia.
    + destruct cs as [|c cs]; [|cbn in B3; lia]. cbn [bind fst snd sort_nat fold_right]. rewrite repeat_then. destruct k as [|k]; [reflexivity|]. cbn [iter_calls]. unfold iter_next at 1. cbn. rewrite exhausted by lia. reflexivity.
Qed.

(** *** Concurrent writers *)
(** Histories *)
Lemma init_listed m cs m1 i : listed m cs -> iter_init m = Ok (m1, i) -> mp_width m1 = mp_width m /\ exists cs1, listed m1 cs1 /\ Permutation cs cs1.
Proof.
  intros (A & B) H. unfold iter_init in H. assert (R : mp_width m = mp_width m /\ exists cs1, listed m cs1 /\ Permutation cs cs1) by (split; [reflexivity|exists cs; split; [split; assumption|reflexivity]]).
  destruct (mp_width m <=? 0); [injection H as <- _; exact R|]. destruct (mp_sparse m) as [sp|] eqn:Es; [|injection H as <- _; exact R].
  destruct (0 <=? sp_size sp) eqn:E0; [|injection H as <- _; exact R]. destruct (0 <? sp_size sp) eqn:E1; [|injection H as <- _; exact R]. cbv zeta in H.
  destruct (nth_error _ 0); [|discriminate]. injection H as <- _. split; [reflexivity|]. destruct (1 <? sp_size sp); [|exists cs; split; [split; cbn; [exact A|exact B]|reflexivity]].
  destruct B as (B1 & B2 & [B3|(B3 & B4 & B5)]); [lia|]. exists (sort_nat cs). split; [|apply sort_perm]. assert (L : length (sort_nat cs) = length cs) by (symmetry; apply Permutation_length, sort_perm). split; cbn [mp_pres mp_sparse mp_width sp_chan sp_cap sp_size].
  - intros c. rewrite A. split; apply Permutation_in; [|symmetry]; apply sort_perm.
  - unfold sort_first. replace (Z.to_nat (sp_size sp)) with (length cs) by lia. rewrite B5. split; [rewrite app_length, L, skipn_length; lia|]. split; [exact B2|]. right. rewrite L. split; [exact B3|]. split; [exact B4|].
    rewrite firstn_app, L, Nat.sub_diag. cbn. rewrite app_nil_r, <- L. apply firstn_all.
Qed.
Lemma history_ok : forall os m cs, listed m cs -> NoDup cs -> (forall c, In c cs -> Z.of_nat c < mp_width m) -> forall cur, (forall c, In c cs <-> In c cur) ->
  once (mp_width m) cur os -> mrun m os = Ok (expected (mp_width m) cur os).
Proof.
  induction os as [|[c|k|] os IH]; intros m cs L N Hr cur Hc H; cbn [mrun mstep once expected bind fst snd app] in *; [reflexivity| | |].
  - destruct H as (H1 & H2 & H3). destruct (listed_set m cs c L) as (L1 & W). rewrite <- W in *. rewrite (IH (set_present m c) (cs ++ [c]) L1) with (cur := c :: cur); [reflexivity| | | |exact H3].
    + rewrite <- Permutation_cons_append. constructor; [rewrite Hc; exact H2|exact N].
    + intros d Hd. rewrite in_app_iff in Hd. destruct Hd as [Hd|[<-|[]]]; [apply Hr, Hd|exact H1].
    + intros d. rewrite in_app_iff. cbn. rewrite Hc. tauto.
  - pose proof (sparse_all m cs k L N Hr) as S. unfold iterate in S. destruct (iter_init m) as [[m1 i]|] eqn:E; [|discriminate]. cbn [bind fst snd] in *. rewrite S. cbn [bind fst snd].
    destruct (init_listed m cs m1 i L E) as (W & cs1 & L1 & P). rewrite <- W in *. rewrite (IH m1 cs1 L1) with (cur := cur); [| | | |exact H].
    + cbn [bind app]. repeat f_equal. unfold present_channels. rewrite W. apply filter_ext. intros c. destruct (in_dec Nat.eq_dec c cur) as [J|J]; destruct (mp_pres m c) eqn:Ep; try reflexivity.
      * apply Hc, (proj1 L) in J. congruence.
      * apply (proj1 L), Hc in Ep. contradiction.
    + exact (Permutation_NoDup P N).
    + intros c Hd. apply Hr. apply (Permutation_in _ (Permutation_sym P)), Hd.
    + intros c. rewrite <- Hc. split; apply Permutation_in; [symmetry|]; exact P.
  - rewrite (IH (new_tag m) []) with (cur := []); [reflexivity| |constructor|intros c []|tauto|exact H].
    destruct L as (_ & B). split; [intros c; cbn; split; [discriminate|intros []]|]. cbn. destruct (mp_sparse m) as [sp|]; [|exact I]. destruct B as (B1 & B2 & _). cbn. split; [exact B1|]. split; [exact B2|]. right. split; [reflexivity|]. split; [lia|reflexivity].
Qed.

Definition slot_of (w : writer) : list nat := match w_phase w with Got k => [Z.to_nat k] | Done (Some k) => [k] | _ => [] end.
Definition slots (l : list writer) : list nat := concat (map slot_of l).
Definition bad_got (cap : nat) (w : writer) : Prop := exists k, w_phase w = Got k /\ (k < 0 \/ Z.of_nat cap <= k).
(** No overflow so far. *)
Definition calm (s : shared) : Prop :=
  sh_size s = Z.of_nat (length (slots (sh_w s))) /\ (length (slots (sh_w s)) <= sh_cap s)%nat /\ length (sh_chan s) = sh_cap s /\ NoDup (slots (sh_w s)) /\
  (forall k, In k (slots (sh_w s)) -> (k < length (slots (sh_w s)))%nat) /\
  (forall w, In w (sh_w s) -> match w_phase w with Got k => 0 <= k | Done None => False | Done (Some k) => nth_error (sh_chan s) k = Some (w_chan w) | _ => True end).
(** Overflow is settled or about to be. *)
Definition doomed (s : shared) : Prop := sh_size s = -1 \/ exists w, In w (sh_w s) /\ bad_got (sh_cap s) w.

Lemma set_w_split l i w x : nth_error l i = Some w -> exists a b, l = a ++ w :: b /\ set_w l i x = a ++ x :: b /\ length a = i.
Proof.
  revert i. induction l as [|y l IH]; intros [|i] H; cbn in *; try discriminate.
  - injection H as ->. exists [], l. auto.
  - destruct (IH i H) as (a & b & A & B & C). exists (y :: a), b. cbn. rewrite A, B at 1. rewrite C. auto. 
Qed.
Lemma slots_app a b : slots (a ++ b) = slots a ++ slots b.
Proof. unfold slots. rewrite map_app, concat_app. reflexivity. Qed.
Lemma slots_cons w b : slots (w :: b) = slot_of w ++ slots b.
Proof. reflexivity. Qed.
Lemma in_slots l k : In k (slots l) <-> exists w, In w l /\ In k (slot_of w).
Proof. unfold slots. rewrite in_concat. split; [intros (x & A & B); apply in_map_iff in A; destruct A as (w & <- & A); eauto|intros (w & A & B); exists (slot_of w); split; [apply in_map, A|exact B]]. Qed.
Lemma set_nth_same l : forall i x, (i < length l)%nat -> nth_error (set_nth l i x) i = Some x.
Proof. induction l as [|y l IH]; intros [|i] x H; cbn in *; [lia|lia|reflexivity|apply IH; lia]. Qed.
Lemma set_nth_other l : forall i j x, i <> j -> nth_error (set_nth l i x) j = nth_error l j.
Proof. induction l as [|y l IH]; intros [|i] [|j] x H; cbn in *; try reflexivity; [congruence|apply IH; congruence]. Qed.

Lemma calm_step s i : calm s -> calm (sh_step s i) \/ doomed (sh_step s i).
Proof.
  intros C. unfold sh_step. destruct (nth_error (sh_w s) i) as [w|] eqn:Ew; [|left; exact C]. destruct C as (A & B & L & N & R & F).
  destruct w as [ch p]. assert (Hin : In (mkW ch p) (sh_w s)) by (eapply nth_error_In, Ew). pose proof (F _ Hin) as Fw. cbn [w_phase w_chan] in Fw.
  unfold write_step. cbn [w_phase w_chan]. destruct p as [| |k|o].
  - replace (0 <=? sh_size s) with true by lia. destruct (set_w_split _ _ _ (mkW ch Checked) Ew) as (a & b & E1 & E2 & _). left. unfold calm. cbn [sh_size sh_w sh_cap sh_chan]. rewrite E2.
    assert (Es : slots (a ++ mkW ch Checked :: b) = slots (sh_w s)) by (rewrite E1, !slots_app, !slots_cons; reflexivity). rewrite Es.
    repeat (split; [assumption|]). intros w Hw. apply in_app_or in Hw. cbn [In] in Hw. destruct Hw as [Hw|[<-|Hw]]; [|exact I|]; apply F; rewrite E1; apply in_or_app; cbn; auto.
  - destruct (set_w_split _ _ _ (mkW ch (Got (sh_size s))) Ew) as (a & b & E1 & E2 & _). destruct (Z_lt_le_dec (sh_size s) (Z.of_nat (sh_cap s))) as [Hlt|Hge].
    + left. unfold calm. cbn [sh_size sh_w sh_cap sh_chan]. rewrite E2.
      assert (Hp : Permutation (slots (a ++ mkW ch (Got (sh_size s)) :: b)) (Z.to_nat (sh_size s) :: slots (sh_w s))).
      { rewrite E1, !slots_app, !slots_cons. cbn [slot_of w_phase app]. symmetry. apply Permutation_middle. }
      rewrite (Permutation_length Hp). cbn [length]. split; [lia|]. split; [lia|]. split; [exact L|]. split.
      * apply (Permutation_NoDup (Permutation_sym Hp)). constructor; [|exact N]. intros K. apply R in K. lia.
      * split.
        -- intros k Hk. apply (Permutation_in _ Hp) in Hk. destruct Hk as [<-|Hk]; [lia|]. apply R in Hk. lia.
        -- intros w Hw. apply in_app_or in Hw. cbn [In] in Hw. destruct Hw as [Hw|[<-|Hw]]; [|cbn; lia|]; apply F; rewrite E1; apply in_or_app; cbn; auto.
    + right. right. cbn [sh_w sh_cap]. rewrite E2. eexists. split; [apply in_or_app; right; left; reflexivity|]. eexists. split; [reflexivity|]. right. exact Hge.
  - assert (Hk : In (Z.to_nat k) (slots (sh_w s))) by (apply in_slots; eexists; split; [exact Hin|left; reflexivity]). apply R in Hk.
    replace ((k <? 0) || (Z.of_nat (sh_cap s) <=? k)) with false by lia. destruct (set_w_split _ _ _ (mkW ch (Done (Some (Z.to_nat k)))) Ew) as (a & b & E1 & E2 & _). left. unfold calm. cbn [sh_size sh_w sh_cap sh_chan]. rewrite E2.
    assert (Es : slots (a ++ mkW ch (Done (Some (Z.to_nat k))) :: b) = slots (sh_w s)) by (rewrite E1, !slots_app, !slots_cons; reflexivity). rewrite Es.
    split; [exact A|]. split; [exact B|]. split; [rewrite set_nth_length; exact L|]. split; [exact N|]. split; [exact R|].
    assert (Hother : forall w, In w (a ++ b) -> match w_phase w with Got k0 => 0 <= k0 | Done None => False | Done (Some j) => nth_error (set_nth (sh_chan s) (Z.to_nat k) ch) j = Some (w_chan w) | _ => True end).
    { intros w Hw. assert (Hw' : In w (sh_w s)) by (rewrite E1; apply in_app_or in Hw; apply in_or_app; cbn; tauto). specialize (F w Hw'). destruct (w_phase w) as [| |j|[j|]] eqn:Ep; try exact F.
      rewrite set_nth_other; [exact F|]. intros Ek. rewrite E1, slots_app, slots_cons in N. cbn [slot_of w_phase app] in N. apply NoDup_remove_2 in N. apply N.
      rewrite <- slots_app. apply in_slots. exists w. split; [exact Hw|]. unfold slot_of. rewrite Ep. left. symmetry. exact Ek. }
    intros w Hw. apply in_app_or in Hw. cbn [In] in Hw. destruct Hw as [Hw|[<-|Hw]]; [apply Hother, in_or_app; auto| |apply Hother, in_or_app; auto]. cbn [w_phase w_chan]. apply set_nth_same. lia.
  - destruct (set_w_split _ _ _ (mkW ch (Done o)) Ew) as (a & b & E1 & E2 & _). left. unfold calm. cbn [sh_size sh_w sh_cap sh_chan]. rewrite E2, <- E1. repeat (split; [assumption|]). exact F.
Qed.
Lemma doomed_step s i : doomed s -> doomed (sh_step s i).
Proof.
  intros D. unfold sh_step. destruct (nth_error (sh_w s) i) as [w|] eqn:Ew; [|exact D]. destruct w as [ch p]. unfold write_step. cbn [w_phase w_chan].
  destruct (set_w_split (sh_w s) i (mkW ch p) (mkW ch Start) Ew) as (a0 & b0 & E0 & _).
  assert (Keep : forall q z c, (forall k, p = Got k -> q <> Got k -> k < 0 \/ Z.of_nat (sh_cap s) <= k -> z = -1) -> (z = sh_size s \/ z = -1 \/ exists k, q = Got k /\ sh_size s = k /\ z = k + 1) ->
     doomed (mkSh (sh_cap s) z c (set_w (sh_w s) i (mkW ch q)))).
  { intros q z c H1 H2. destruct (set_w_split _ _ _ (mkW ch q) Ew) as (a & b & E1 & E2 & _). unfold doomed. cbn [sh_size sh_w sh_cap]. rewrite E2.
    destruct D as [D|(w & Hw & k & Hk & Hb)].
    - destruct H2 as [->|[->|(k & -> & Ek & _)]]; [left; exact D|left; reflexivity|]. right. eexists. split; [apply in_or_app; right; left; reflexivity|]. exists k. split; [reflexivity|]. lia.
    - rewrite E1 in Hw. apply in_app_or in Hw. cbn [In] in Hw. destruct Hw as [Hw|[<-|Hw]].
      + right. exists w. split; [apply in_or_app; auto|]. exists k. auto.
      + cbn [w_phase] in Hk. subst p. assert (Dq : q = Got k \/ q <> Got k) by (destruct q as [| |j|]; try (right; discriminate); destruct (Z.eq_dec j k); [left; congruence|right; congruence]).
        destruct Dq as [->|Dq]; [right; eexists; split; [apply in_or_app; right; left; reflexivity|]; exists k; auto|]. left. eapply H1; [reflexivity|exact Dq|exact Hb].
      + right. exists w. split; [apply in_or_app; cbn; auto|]. exists k. auto. }
  destruct p as [| |k|o].
  - apply Keep; [discriminate|auto].
  - apply Keep; [discriminate|]. right. right. eauto.
  - destruct ((k <? 0) || (Z.of_nat (sh_cap s) <=? k)) eqn:E; apply Keep; auto. intros j Ej _ Hb. injection Ej as <-. lia.
  - apply Keep; [discriminate|auto].
Qed.
Lemma run_calm sched : forall s, calm s \/ doomed s -> calm (sh_run s sched) \/ doomed (sh_run s sched).
Proof. unfold sh_run. induction sched as [|i l IH]; intros s H; [exact H|]. cbn [fold_left]. apply IH. destruct H as [H|H]; [apply calm_step, H|right; apply doomed_step, H]. Qed.
Lemma step_chans s i : map w_chan (sh_w (sh_step s i)) = map w_chan (sh_w s) /\ sh_cap (sh_step s i) = sh_cap s.
Proof.
  unfold sh_step. destruct (nth_error (sh_w s) i) as [w|] eqn:Ew; [|auto]. destruct (write_step s w) as [[z c] p]. cbn [sh_w sh_cap]. split; [|reflexivity].
  destruct (set_w_split _ _ _ (mkW (w_chan w) p) Ew) as (a & b & E1 & E2 & _). rewrite E2, E1, !map_app. reflexivity.
Qed.
Lemma run_chans sched : forall s, map w_chan (sh_w (sh_run s sched)) = map w_chan (sh_w s) /\ sh_cap (sh_run s sched) = sh_cap s.
Proof. unfold sh_run. induction sched as [|i l IH]; intros s; [auto|]. cbn [fold_left]. destruct (IH (sh_step s i)) as (A & B), (step_chans s i) as (C & D). split; congruence. Qed.

Lemma calm_start cap chan ws : length chan = cap -> calm (start_writes cap chan ws).
Proof.
  intros H. unfold calm, start_writes. cbn [sh_size sh_w sh_cap sh_chan].
  assert (E : slots (map (fun c => mkW c Start) ws) = []) by (induction ws as [|c ws IH]; [reflexivity|exact IH]). rewrite E. cbn. split; [reflexivity|]. split; [lia|]. split; [exact H|]. split; [constructor|]. split; [intros k []|].
  intros w Hw. apply in_map_iff in Hw. destruct Hw as (c & <- & _). exact I.
Qed.
Lemma start_chans cap chan ws : map w_chan (sh_w (start_writes cap chan ws)) = ws.
Proof. unfold start_writes. cbn. rewrite map_map. cbn. apply map_id. Qed.

Lemma nth_first (l : list nat) n : (n <= length l)%nat -> firstn n l = map (fun k => nth k l 0%nat) (seq 0 n).
Proof.
  revert n. induction l as [|x l IH]; intros [|n] H; cbn in H; try reflexivity; [lia|]. cbn [firstn seq map]. f_equal. rewrite IH by lia. rewrite <- seq_shift, map_map. reflexivity.
Qed.
Lemma calm_done s : calm s -> Forall is_done (sh_w s) ->
  sh_size s = Z.of_nat (length (sh_w s)) /\ (length (sh_w s) <= sh_cap s)%nat /\ Permutation (firstn (length (sh_w s)) (sh_chan s)) (map w_chan (sh_w s)).
Proof.
  intros (A & B & L & N & R & F) Hd. rewrite Forall_forall in Hd.
  assert (Hs : map w_chan (sh_w s) = map (fun k => nth k (sh_chan s) 0%nat) (slots (sh_w s)) /\ length (slots (sh_w s)) = length (sh_w s)).
  { clear N R A B. revert Hd F. generalize (sh_w s). intros l. induction l as [|w l IH]; intros Hd F; [split; reflexivity|].
    destruct IH as (I1 & I2); [intros x Hx; apply Hd; right; exact Hx|intros x Hx; apply F; right; exact Hx|].
    destruct (Hd w (or_introl eq_refl)) as (o & Ho). specialize (F w (or_introl eq_refl)). rewrite Ho in F. destruct o as [k|]; [|destruct F].
    rewrite slots_cons. unfold slot_of. rewrite Ho. cbn [app map length]. rewrite (nth_error_nth _ _ _ F). split; [f_equal; exact I1|lia]. }
  destruct Hs as (H1 & H2). rewrite H2 in *. split; [exact A|]. split; [exact B|]. rewrite nth_first by lia. rewrite H1. apply Permutation_map. apply Permutation_sym. apply NoDup_Permutation_bis; [exact N|rewrite seq_length; lia|].
  intros k Hk. apply in_seq. specialize (R k Hk). lia.
Qed.
Lemma doomed_done s : doomed s -> Forall is_done (sh_w s) -> sh_size s = -1.
Proof. intros [D|(w & Hw & k & Hk & _)] Hd; [exact D|]. rewrite Forall_forall in Hd. destruct (Hd w Hw) as (o & Ho). congruence. Qed.

(** When there is room for all writers the record never overflows. *)
Definition safe (s : shared) : Prop := calm s /\ (length (sh_w s) <= sh_cap s)%nat.
Lemma slots_le l : (length (slots l) <= length l)%nat.
Proof. induction l as [|w l IH]; [cbn; lia|]. rewrite slots_cons, app_length. cbn [length]. assert (length (slot_of w) <= 1)%nat by (unfold slot_of; destruct (w_phase w) as [| |?|[?|]]; cbn; lia). lia. Qed.
Lemma safe_step s i : safe s -> safe (sh_step s i).
Proof.
  intros (C & Hn). destruct (step_chans s i) as (Ec & Ecap).
  assert (El : length (sh_w (sh_step s i)) = length (sh_w s)) by (rewrite <- (map_length w_chan), Ec, map_length; reflexivity).
  split; [|lia]. destruct (calm_step s i C) as [K|D]; [exact K|]. exfalso.
  (* an overflow would need more slots than writers *)
  destruct C as (A & B & L & N & R & F). unfold sh_step in D. destruct (nth_error (sh_w s) i) as [w|] eqn:Ew.
  2:{ destruct D as [D|(w & Hw & k & Hk & Hb)]; [lia|]. assert (K : In (Z.to_nat k) (slots (sh_w s))) by (apply in_slots; exists w; split; [exact Hw|unfold slot_of; rewrite Hk; left; reflexivity]). apply R in K. specialize (F w Hw). rewrite Hk in F. lia. }
  destruct w as [ch p]. assert (Hin : In (mkW ch p) (sh_w s)) by (eapply nth_error_In, Ew). pose proof (F _ Hin) as Fw. cbn [w_phase w_chan] in Fw. unfold write_step in D. cbn [w_phase w_chan] in D.
  assert (Hold : forall w, In w (sh_w s) -> bad_got (sh_cap s) w -> False).
  { intros w Hw (k & Hk & Hb). assert (K : In (Z.to_nat k) (slots (sh_w s))) by (apply in_slots; exists w; split; [exact Hw|unfold slot_of; rewrite Hk; left; reflexivity]). apply R in K. specialize (F w Hw). rewrite Hk in F. lia. }
  assert (Hnew : forall q z c, doomed (mkSh (sh_cap s) z c (set_w (sh_w s) i (mkW ch q))) -> z <> -1 -> bad_got (sh_cap s) (mkW ch q)).
  { intros q z c [D'|(w & Hw & Hb)] Hz; [cbn in D'; contradiction|]. cbn [sh_w sh_cap] in *. destruct (set_w_split _ _ _ (mkW ch q) Ew) as (a & b & E1 & E2 & _). rewrite E2 in Hw. apply in_app_or in Hw. cbn [In] in Hw.
    destruct Hw as [Hw|[<-|Hw]]; [|exact Hb|]; exfalso; apply (Hold w); try exact Hb; rewrite E1; apply in_or_app; cbn; auto. }
  destruct p as [| |k|o].
  - replace (0 <=? sh_size s) with true in D by lia. apply Hnew in D; [|lia]. destruct D as (k & Hk & _). discriminate.
  - apply Hnew in D; [|lia]. destruct D as (k & Hk & Hb). injection Hk as <-. destruct (set_w_split _ _ _ (mkW ch Start) Ew) as (a & b & E1 & _).
    assert (K : (length (slots (sh_w s)) < length (sh_w s))%nat). { rewrite E1, slots_app, slots_cons, !app_length. cbn [slot_of w_phase app length]. pose proof (slots_le a). pose proof (slots_le b). lia. }
    lia.
  - assert (Hk : In (Z.to_nat k) (slots (sh_w s))) by (apply in_slots; eexists; split; [exact Hin|left; reflexivity]). apply R in Hk.
    replace ((k <? 0) || (Z.of_nat (sh_cap s) <=? k)) with false in D by lia. apply Hnew in D; [|lia]. destruct D as (j & Hj & _). discriminate.
  - apply Hnew in D; [|lia]. destruct D as (j & Hj & _). discriminate.
Qed.
Lemma run_safe sched : forall s, safe s -> safe (sh_run s sched).
Proof. unfold sh_run. induction sched as [|i l IH]; intros s H; [exact H|]. cbn [fold_left]. apply IH, safe_step, H. Qed.

(** The size never exceeds the number of writers. *)
Definition past (w : writer) : bool := match w_phase w with Start | Checked => false | _ => true end.
Definition pasts (l : list writer) : nat := length (filter past l).
Lemma pasts_app a b : pasts (a ++ b) = (pasts a + pasts b)%nat.
Proof. unfold pasts. rewrite filter_app, app_length. reflexivity. Qed.
Lemma pasts_cons w b : pasts (w :: b) = ((if past w then 1 else 0) + pasts b)%nat.
Proof. unfold pasts. cbn. destruct (past w); reflexivity. Qed.
Lemma bound_step s i : sh_size s <= Z.of_nat (pasts (sh_w s)) -> sh_size (sh_step s i) <= Z.of_nat (pasts (sh_w (sh_step s i))).
Proof.
  intros H. unfold sh_step. destruct (nth_error (sh_w s) i) as [w|] eqn:Ew; [|exact H]. destruct (write_step s w) as [[z c] p] eqn:Es. cbn [sh_size sh_w].
  destruct (set_w_split _ _ _ (mkW (w_chan w) p) Ew) as (a & b & E1 & E2 & _). rewrite E2. rewrite E1 in H. rewrite pasts_app, pasts_cons in *. destruct w as [ch q]. unfold write_step in Es. cbn [w_phase w_chan] in *.
  destruct q as [| |k|o]; cbn [past w_phase] in H.
  - injection Es as <- <- <-. destruct (0 <=? sh_size s); cbn [past w_phase]; lia.
  - injection Es as <- <- <-. cbn [past w_phase]. lia.
  - destruct (_ || _); injection Es as <- <- <-; cbn [past w_phase]; lia.
  - injection Es as <- <- <-. cbn [past w_phase]. lia.
Qed.
Lemma run_bound sched : forall s, sh_size s <= Z.of_nat (pasts (sh_w s)) -> sh_size (sh_run s sched) <= Z.of_nat (length (sh_w (sh_run s sched))).
Proof.
  unfold sh_run. induction sched as [|i l IH]; intros s H; cbn [fold_left]; [|apply IH, bound_step, H]. unfold pasts in H.
  assert (length (filter past (sh_w s)) <= length (sh_w s))%nat by (generalize (sh_w s); intros k; induction k as [|w k IHk]; cbn; [lia|destruct (past w); cbn; lia]). lia.
Qed.
