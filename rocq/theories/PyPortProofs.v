From Verif Require Import Base Tag PyPort PyPortSpec.
From Coq Require Import Lia.
Open Scope Z_scope.

Lemma set_nth_length i x l : length (set_nth i x l) = length l.
Proof. revert i; induction l as [|a l IH]; intros [|i]; cbn; auto. Qed.

Lemma set_nth_same i x l : (i < length l)%nat -> nth_error (set_nth i x l) i = Some x.
Proof. revert i; induction l as [|a l IH]; intros [|i] h; cbn in *; try lia; auto. apply IH; lia. Qed.

Lemma set_nth_other i j x l : i <> j -> nth_error (set_nth j x l) i = nth_error l i.
Proof. revert i j; induction l as [|a l IH]; intros [|i] [|j] h; cbn; try congruence; auto. Qed.

Lemma prun_length w l : length (prun w l) = w.
Proof.
  unfold prun.
  assert (g : forall ps, length (fold_left pstep l ps) = length ps).
  { induction l as [|o l IH]; intros ps; cbn; auto. rewrite IH.
    destruct o; cbn; [apply set_nth_length | apply map_length]. }
  rewrite g. apply repeat_length.
Qed.

Lemma prun_snoc w l o : prun w (l ++ [o]) = pstep (prun w l) o.
Proof. unfold prun. now rewrite fold_left_app. Qed.

Lemma prun_shows w l i p : nth_error (prun w l) i = Some p ->
  match set_now i (rev l) with
  | Some v => cp_present p = true /\ cp_value p = Some v
  | None => cp_present p = false
  end.
Proof.
  revert p. induction l as [|o l IH] using rev_ind; intros p e.
  - cbn in *. apply nth_error_In in e. apply repeat_spec in e. now subst.
  - rewrite prun_snoc in e. rewrite rev_app_distr. cbn.
    destruct o as [j v|]; cbn in e.
    + destruct (Nat.eqb_spec i j) as [ij|ij].
      * subst j. assert (li : (i < length (prun w l))%nat).
        { rewrite <- (set_nth_length i (mkCport (Some v) true)). apply nth_error_Some. now rewrite e. }
        rewrite set_nth_same in e by exact li. injection e as e. now subst p.
      * rewrite set_nth_other in e by exact ij. now apply IH.
    + rewrite nth_error_map in e. destruct (nth_error (prun w l) i); cbn in e; [|discriminate].
      injection e as e. now subst p.
Qed.

Lemma channel_shows w l i p : nth_error (prun w l) i = Some p -> shows i l (channel i p).
Proof.
  intros e. pose proof (prun_shows _ _ _ _ e) as h. unfold shows, channel; cbn.
  split; [reflexivity|]. split; [reflexivity|].
  destruct (set_now i (rev l)); [|exact h].
  destruct h as [h1 h2]. rewrite h1, h2. now split.
Qed.

Lemma nth_error_lt {A} (l : list A) i : (i < length l)%nat -> exists x, nth_error l i = Some x.
Proof. intros h. destruct (nth_error l i) eqn:e; [eauto|]. apply nth_error_None in e. lia. Qed.

Lemma iter_next_in ports c i p :
  c_width c = Z.of_nat (length ports) -> c_index c = Some (Z.of_nat i) -> nth_error ports i = Some p ->
  iter_next ports c = Ok (Val (Some (channel i p), at_index c (Z.of_nat i + 1))).
Proof.
  intros w x e. assert (l : (i < length ports)%nat) by (apply nth_error_Some; now rewrite e).
  unfold iter_next. rewrite w, x.
  destruct (Z.ltb_spec (Z.of_nat (length ports)) 1); [lia|].
  destruct (Z.leb_spec (Z.of_nat (length ports)) (Z.of_nat i)); [lia|].
  destruct (Z.ltb_spec (Z.of_nat i) 0); [lia|].
  rewrite Nat2Z.id, e. reflexivity.
Qed.

Lemma iter_next_end ports c :
  c_width c = Z.of_nat (length ports) -> (1 <= length ports)%nat -> c_index c = Some (Z.of_nat (length ports)) ->
  iter_next ports c = Ok (Val (None, at_index c 0)).
Proof.
  intros w l x. unfold iter_next. rewrite w, x.
  destruct (Z.ltb_spec (Z.of_nat (length ports)) 1); [lia|].
  destruct (Z.leb_spec (Z.of_nat (length ports)) (Z.of_nat (length ports))); [|lia]. reflexivity.
Qed.

(** A loop from index [i] on visits the channels from [i] on. *)
Lemma loop_from ports body (B : forall c, body c = Some c) :
  (1 <= length ports)%nat ->
  forall k i c n, (i + k = length ports)%nat -> (k < n)%nat ->
  c_width c = Z.of_nat (length ports) -> c_index c = Some (Z.of_nat i) ->
  exists qs, loop n ports body c = Ok (Ended qs (at_index c 0)) /\ length qs = k /\
    forall j p, nth_error ports (i + j) = Some p -> nth_error qs j = Some (channel (i + j) p).
Proof.
  intros l1. induction k as [|k IH]; intros i c n ik kn w x.
  - destruct n as [|n]; [lia|]. exists []. cbn [loop].
    assert (i = length ports) by lia. subst i.
    rewrite (iter_next_end ports c w l1 x). cbn. split; [reflexivity|]. split; [reflexivity|].
    intros j p e. assert (length ports + j < length ports)%nat by (apply nth_error_Some; now rewrite e). lia.
  - destruct n as [|n]; [lia|]. destruct (nth_error_lt ports i) as [p e]; [lia|].
    destruct (IH (S i) (at_index c (Z.of_nat i + 1)) n) as (qs & r & lq & h).
    { lia. } { lia. } { exact w. } { cbn. f_equal. lia. }
    exists (channel i p :: qs). cbn [loop]. rewrite (iter_next_in ports c i p w x e). cbn [bind].
    rewrite B. rewrite r. cbn. split; [reflexivity|]. split; [now rewrite lq|].
    intros [|j] q eq.
    + rewrite Nat.add_0_r in *. rewrite e in eq. now injection eq as <-.
    + replace (i + S j)%nat with (S i + j)%nat in * by lia. cbn. now apply h.
Qed.

Lemma for_each_all ports body c n (B : forall c, body c = Some c) :
  (1 <= length ports)%nat -> c_width c = Z.of_nat (length ports) -> (length ports < n)%nat ->
  exists qs, for_each n ports body c = Ok (Ended qs (iter c)) /\ length qs = length ports /\
    forall j p, nth_error ports j = Some p -> nth_error qs j = Some (channel j p).
Proof.
  intros l1 w ln. unfold for_each.
  destruct (loop_from ports body B l1 (length ports) 0 (iter c) n) as (qs & r & lq & h); [lia|lia|exact w|reflexivity|].
  exists qs. split; [exact r|]. split; [exact lq|]. exact h.
Qed.

Lemma nested_runs ports : (1 <= length ports)%nat ->
  forall n c, c_width c = Z.of_nat (length ports) -> c_index c = Some 0 ->
  loop n ports (inner_loop ports) c = Ok Running.
Proof.
  intros l1. induction n as [|n IH]; intros c w x; [reflexivity|].
  destruct (nth_error_lt ports 0) as [p e]; [lia|].
  cbn [loop]. rewrite (iter_next_in ports c 0 p w x e). cbn [bind].
  unfold inner_loop at 1.
  destruct (for_each_all ports Some (at_index c (Z.of_nat 0 + 1)) (S (length ports))) as (qs & r & _); [reflexivity|lia|exact w|lia|].
  rewrite r. rewrite IH; [reflexivity|exact w|reflexivity].
Qed.
