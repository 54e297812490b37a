(** Proofs for C100. *)
From Verif Require Import Base Audio AudioSpec AudioProofs AudioMac AudioMacSpec.
Open Scope Z_scope.
Local Open Scope list_scope.

(** The player without the last frames. *)
Definition h_step (a : player) (o : event) : player := match o with Turn => i_turn a | Note w e t => p_play a w e t end.
Definition h_run (a : player) (l : list event) : player := fold_left h_step l a.
Lemma mac_turn s a : sim s a -> exists s1, mac_callback s = Ok s1 /\ sim s1 (i_turn a).
Proof.
  intros (A & A1 & B & C & D & E0 & F & G & K & K1 & L & L1). unfold mac_callback. destruct (trail_ok _ _ F silence silence_bounded) as (ns & T & R). rewrite T, A.
  destruct (fold_level_inv (p_slots a) silence silence_bounded) as [V1 V2]. eexists. split; [reflexivity|]. unfold sim, i_turn. cbn [s_ready s_sent s_buf s_start s_notes s_counter s_played p_buf p_start p_slots p_next p_out].
  split; [reflexivity|]. split; [reflexivity|]. split; [reflexivity|]. split; [exact V1|]. split; [rewrite silence_length in V2; exact V2|]. split; [now rewrite E0|].
  split; [rewrite silence_length in R; exact R|]. split; [now rewrite map_length|]. split; [exact K|]. split; [exact K1|]. split; [now rewrite L, B|]. apply Forall_app. split; [exact L1|exact C].
Qed.
Fixpoint h_near (a : player) (l : list event) : Prop :=
  match l with
  | [] => True
  | o :: l => match o with Turn => True | Note _ _ t => - 2 ^ 63 <= t - p_start a < 2 ^ 63 / SAMPLE_RATE end /\ h_near (h_step a o) l
  end.
Lemma mac_simulation l : forall s a, sim s a -> Forall proper l -> h_near a l -> exists s', mac_run s (mac_ops l) = Ok s' /\ sim s' (h_run a l).
Proof.
  induction l as [|o l IH]; intros s a S0 F N; [exists s; split; [reflexivity|exact S0]|]. inversion F as [|? ? F1 F2]; subst. destruct N as [N1 N2].
  change (h_run a (o :: l)) with (h_run (h_step a o) l). destruct o as [|w e t]; cbn [mac_ops map mac_run mac_step h_step] in *.
  - destruct (mac_turn s a S0) as (s1 & C & S1). rewrite C. apply IH; auto.
  - destruct (sim_play s a w e t S0 F1 N1) as (r & Pl & _ & _ & S1). rewrite Pl. destruct r as [[s' k]|]; apply IH; auto.
Qed.
Lemma rel_repeat n : Forall2 rel (repeat no_note n) (repeat ((0, 1%positive), []) n).
Proof. induction n as [|n IH]; cbn [repeat]; constructor; [|exact IH]. left. split; [left; reflexivity|left; reflexivity]. Qed.
Lemma mac_begin t0 : exists s, mac_run (mac_start t0) [MCallback] = Ok s /\ sim s (mac_init t0).
Proof.
  cbn [mac_run mac_step]. unfold mac_callback. cbn [s_notes s_ready s_start s_counter s_played mac_start].
  destruct (trail_ok _ _ (rel_repeat NUM_NOTES) silence silence_bounded) as (ns & T & R2). rewrite T.
  rewrite fold_overlay_zero; [|exact silence_bounded|apply Forall_forall; intros x X; apply repeat_spec in X; subst x; left; reflexivity].
  eexists. split; [reflexivity|]. unfold sim, mac_init. cbn [s_ready s_sent s_buf s_start s_notes s_counter s_played p_buf p_start p_slots p_next p_out].
  split; [reflexivity|]. split; [reflexivity|]. split; [reflexivity|]. split; [exact silence_bounded|]. split; [exact silence_length|]. split; [unfold BUFFER_DURATION_NS; lia|].
  split.
  - assert (Q : forall n k, map (fun s : volume * list Z => (fst s, skipn k (snd s))) (repeat ((0, 1%positive), []) n) = repeat ((0, 1%positive), []) n).
    { intros n k. induction n as [|n IH]; cbn [repeat map]; [reflexivity|]. cbn [fst snd]. now rewrite skipn_nil, IH. }
    rewrite Q in R2. exact R2.
  - split; [apply repeat_length|]. split; [reflexivity|]. split; [unfold NUM_NOTES; lia|]. split; [reflexivity|constructor].
Qed.

(** * The last frame *)
Definition tail_rel (x y : volume * list Z) : Prop := fst x = fst y /\ (snd x = snd y \/ snd x = snd y ++ [0]).
Lemma overlay_tail e buf h : Forall bounded buf -> overlay e buf (h ++ [0]) = overlay e buf h.
Proof.
  intros B. rewrite overlay_app2. rewrite overlay_silent by now apply skipn_forall. pose proof (overlay_app2 e h buf []) as X. rewrite app_nil_r, overlay_nil in X. symmetry. exact X.
Qed.
Lemma level_tail x y buf : tail_rel x y -> Forall bounded buf -> level buf x = level buf y.
Proof. intros [E0 [Q|Q]] B; unfold level; rewrite E0, Q; [reflexivity|now apply overlay_tail]. Qed.
Lemma fold_tail xs ys : Forall2 tail_rel xs ys -> forall buf, Forall bounded buf -> fold_left level xs buf = fold_left level ys buf.
Proof.
  induction 1 as [|x y xs ys R _ IH]; intros buf B; cbn [fold_left]; [reflexivity|]. rewrite (level_tail x y buf R B). apply IH. unfold level. now apply overlay_bounded.
Qed.
Lemma skip_tail k x y : tail_rel x y -> tail_rel (fst x, skipn k (snd x)) (fst y, skipn k (snd y)).
Proof.
  intros [E0 Q]. split; [exact E0|]. cbn [snd]. destruct Q as [Q|Q]; rewrite Q; [now left|]. rewrite skipn_app. destruct (k - length (snd y))%nat; cbn [skipn]; [now right|]. left. rewrite skipn_nil. apply app_nil_r.
Qed.
Definition close (a b : player) : Prop :=
  p_buf a = p_buf b /\ p_start a = p_start b /\ p_out a = p_out b /\ p_next a = p_next b /\ Forall2 tail_rel (p_slots a) (p_slots b) /\ Forall bounded (p_buf a).
Lemma frames_tail w : whole w -> quiet_end w -> frames w = heard w \/ frames w = heard w ++ [0].
Proof.
  intros W Q. destruct (count_spec w W) as [C _]. destruct (Nat.eq_dec (count w) 1) as [N|N].
  - left. unfold heard. rewrite N. cbn [Nat.sub Nat.max]. symmetry. apply firstn_all2. rewrite frames_length. lia.
  - right. destruct Q as [Q|Q]; [contradiction|]. rewrite (heard_map w W). unfold frames, m_of. rewrite Nat.max_r by lia. replace (count w) with (count w - 1 + 1)%nat at 1 by lia. rewrite seq_app, map_app. cbn [seq map Nat.add]. now rewrite Q.
Qed.
Lemma close_step a b o : close a b -> proper o -> fading o -> close (i_step a o) (h_step b o).
Proof.
  intros (A1 & A2 & A3 & A4 & A5 & A6) P F. destruct o as [|w e t]; cbn [i_step h_step].
  - unfold close, i_turn. cbn [p_buf p_start p_slots p_out p_next]. change (fun (b : list Z) (s : volume * list Z) => overlay (fst s) b (snd s)) with level.
    rewrite (fold_tail _ _ A5 silence silence_bounded), A1, A2, A3, A4. split; [reflexivity|]. split; [reflexivity|]. split; [reflexivity|]. split; [reflexivity|].
    split; [|apply fold_level_inv, silence_bounded]. clear -A5. induction A5 as [|x y xs ys R _ IH]; cbn [map]; constructor; [now apply skip_tail|exact IH].
  - unfold i_play, p_play, with_note. assert (I0 : index_of b t = index_of a t) by (unfold index_of; now rewrite A2). rewrite I0.
    destruct (AUDIO_BUFFER_SIZE <=? index_of a t); [unfold close; auto 9|]. cbv zeta. destruct P as [M W].
    assert (Bd : forall i vs, Forall bounded (firstn i (p_buf a) ++ overlay e (skipn i (p_buf a)) vs)) by (intros i vs; apply Forall_app; split; [now apply firstn_forall|apply overlay_bounded; now apply skipn_forall]).
    destruct w as [w|]; cbn [option_map]; unfold close; cbn [p_buf p_start p_slots p_out p_next]; rewrite <- A1, <- A2, <- A3, <- A4.
    + cbn [fading] in F. rewrite (heard_quiet w e _ W F (skipn_forall _ _ _ A6)). split; [reflexivity|]. split; [reflexivity|]. split; [reflexivity|]. split; [reflexivity|]. split; [|apply Bd].
      apply set_nth_forall2; [|exact A5]. apply (skip_tail _ (e, frames w) (e, heard w)). split; [reflexivity|]. exact (frames_tail w W F).
    + split; [reflexivity|]. split; [reflexivity|]. split; [reflexivity|]. split; [reflexivity|]. split; [exact A5|apply Bd].
Qed.
Lemma close_run l : forall a b, close a b -> Forall proper l -> Forall fading l -> p_out (i_run a l) = p_out (h_run b l).
Proof.
  induction l as [|o l IH]; intros a b A P F; [apply A|]. inversion P; inversion F; subst. change (i_run a (o :: l)) with (i_run (i_step a o) l). change (h_run b (o :: l)) with (h_run (h_step b o) l).
  apply IH; auto. now apply close_step.
Qed.
Lemma start_step a b o : p_start a = p_start b -> p_start (i_step a o) = p_start (h_step b o).
Proof.
  intros H. destruct o as [|w e t]; cbn [i_step h_step].
  - cbn [i_turn p_start]. now rewrite H.
  - unfold i_play, p_play, with_note. destruct (_ <=? _), (_ <=? _); cbv zeta; destruct w; cbn [option_map p_start]; exact H.
Qed.
Lemma near_same l : forall a b, p_start a = p_start b -> mac_near a l -> h_near b l.
Proof.
  induction l as [|o l IH]; intros a b H N; [exact I|]. destruct N as [N1 N2]. split; [destruct o; [exact I|now rewrite <- H]|]. apply (IH (i_step a o)); [now apply start_step|exact N2].
Qed.
Lemma mac_step_tame s o s' : tame s -> mac_step s o = Ok s' -> tame s'.
Proof.
  intros T H. destruct o as [|w e t]; [|exact (step_tame s (Play w e t) s' T H)]. destruct T as [B P]. cbn [mac_step] in H. unfold mac_callback in H.
  destruct (trail (s_notes s) silence) as [[ns b]|] eqn:Q; [|discriminate]. assert (Es : s' = mkState true false b (s_start s + BUFFER_DURATION_NS) ns (s_counter s) (s_played s ++ (if s_ready s then s_buf s else []))) by congruence. subst s'.
  split; cbn [s_buf s_played]; [exact (trail_bounded _ _ _ _ silence_bounded Q)|]. apply Forall_app. split; [exact P|]. destruct (s_ready s); [exact B|constructor].
Qed.
Lemma mac_run_tame l : forall s s', tame s -> mac_run s l = Ok s' -> tame s'.
Proof.
  induction l as [|o l IH]; intros s s' T H; cbn [mac_run] in H; [congruence|]. destruct (mac_step s o) as [s1|] eqn:Q; [|discriminate]. eapply IH; [|exact H]. eapply mac_step_tame; eauto.
Qed.
