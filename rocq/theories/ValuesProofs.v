(** Proofs for C65. *)
From Verif Require Import Base Tag TagSpec TagProofs Pqueue PqueueProofs Token TokenSpec TokenProofs Schedule ScheduleSpec ScheduleProofs Runtime RuntimeSpec RuntimeProofs TimersSpec TimersProofs Values ValuesSpec.
From Coq Require Import Arith Permutation.
Open Scope Z_scope.

(** *** Payload cells are written once *)
Definition pay_le (s s' : tst) : Prop := (ts_pfresh s <= ts_pfresh s')%nat /\ forall p, (p < ts_pfresh s)%nat -> ts_pay s' p = ts_pay s p \/ ts_pay s' p = None.
Lemma pay_refl s : pay_le s s.
Proof. split; auto. Qed.
Lemma pay_trans a b c : pay_le a b -> pay_le b c -> pay_le a c.
Proof. intros (A & B) (A' & B'). split; [lia|]. intros p Hp. destruct (B' p) as [Q|Q]; [lia| |right; exact Q]. rewrite Q. apply B, Hp. Qed.
Lemma pay_same s s' : ts_pay s' = ts_pay s -> ts_pfresh s' = ts_pfresh s -> pay_le s s'.
Proof. intros A B. split; [lia|]. intros p _. rewrite A. auto. Qed.
Lemma pay_alloc s d : pay_le s (fst (alloc_pay s d)).
Proof. split; [cbn; lia|]. intros p Hp. cbn. left. apply upd_neq. lia. Qed.
Lemma pay_free_value s t s' : free_token_value s t = Ok s' -> pay_le s s'.
Proof.
  intros H. unfold free_token_value in H. bind_inv H. destruct (tk_val x) as [p|]; [|injection H as <-; apply pay_refl]. destruct (ts_pay s p); [|discriminate]. injection H as <-.
  split; [cbn; lia|]. intros q _. cbn. unfold upd. destruct (Nat.eqb q p); auto.
Qed.
Lemma pay_free s o s' r : free_token s o = Ok (s', r) -> pay_le s s'.
Proof.
  intros H. unfold free_token in H. destruct o as [t|]; [|injection H as <- _; apply pay_refl]. bind_inv H. destruct (0 <? tk_ref x); [injection H as <- _; apply pay_refl|].
  bind_inv H. rename x0 into s1. injection H as <- _. eapply pay_trans; [exact (pay_free_value _ _ _ E0)|]. destruct (_ <? _)%nat; [destruct (mem t (ts_bin s1))|]; apply pay_same; reflexivity.
Qed.
Lemma pay_done s o s' r : done_using s o = Ok (s', r) -> pay_le s s'.
Proof.
  intros H. unfold done_using in H. destruct o as [t|]; [|injection H as <- _; apply pay_refl]. bind_inv H. destruct (tk_ref x =? 0); [injection H as <- _; apply pay_refl|].
  apply pay_free in H. eapply pay_trans; [|exact H]. apply pay_same; reflexivity.
Qed.
Lemma pay_write s t f s' : write_tok s t f = Ok s' -> pay_le s s'.
Proof. intros H. unfold write_tok in H. bind_inv H. injection H as <-. apply pay_same; reflexivity. Qed.
Lemma pay_new s i v len s' n : new_token s i v len = Ok (s', n) -> pay_le s s'.
Proof. intros H. unfold new_token in H. destruct (ts_bin s); [injection H as <- _; apply pay_same; reflexivity|]. bind_inv H. injection H as <- _. apply pay_same; reflexivity. Qed.
Lemma pay_get s i s' r : get_token s i = Ok (s', r) -> pay_le s s'.
Proof.
  intros H. unfold get_token in H.
  assert (F : (do! r <- new_token s i None 0; do! s2 <- write_tok (fst r) (snd r) (fun k => with_ref k 1); Ok (s2, snd r)) = Ok (s', r) -> pay_le s s').
  { intros H0. bind_inv H0. destruct x as [s1 n]. cbn [fst snd] in H0. bind_inv H0. injection H0 as <- _. eapply pay_trans; [exact (pay_new _ _ _ _ _ _ E)|exact (pay_write _ _ _ _ E0)]. }
  destruct (tp_tok (ts_tmpl s i)) as [t|]; [|exact (F H)]. bind_inv H. destruct (tk_ref x =? 1); [|exact (F H)]. bind_inv H. injection H as <- _. exact (pay_free_value _ _ _ E0).
Qed.
Lemma pay_init_value s i v len s' r : initialize_token_with_value s i v len = Ok (s', r) -> pay_le s s'.
Proof. intros H. unfold initialize_token_with_value in H. bind_inv H. destruct x as [s1 n]. cbn [fst snd] in H. bind_inv H. injection H as <- _. eapply pay_trans; [exact (pay_get _ _ _ _ E)|exact (pay_write _ _ _ _ E0)]. Qed.
Lemma pay_replace s i o s' : replace_template_token s i o = Ok s' -> pay_le s s'.
Proof.
  intros H. unfold replace_template_token in H. destruct (opt_eqb _ _); [injection H as <-; apply pay_refl|]. bind_inv H. destruct x as [s1 r]. cbn [fst] in H. bind_inv H. rename x into s2. injection H as <-.
  eapply pay_trans; [exact (pay_done _ _ _ _ E)|]. assert (A : pay_le s1 s2) by (destruct o as [t|]; [exact (pay_write _ _ _ _ E0)|injection E0 as <-; apply pay_refl]).
  eapply pay_trans; [exact A|]. apply pay_same; reflexivity.
Qed.
Lemma pay_copies : forall fuel s s', free_token_copies fuel s = Ok s' -> pay_le s s'.
Proof.
  induction fuel as [|f IH]; intros s s' H; cbn [free_token_copies] in H; destruct (ts_list s) as [t|]; try discriminate; try (injection H as <-; apply pay_refl).
  bind_inv H. destruct x as [s1 r]. cbn [fst] in H. bind_inv H. apply IH in H. eapply pay_trans; [exact (pay_done _ _ _ _ E)|]. eapply pay_trans; [|exact H]. apply pay_same; reflexivity.
Qed.
Lemma pay_init_fresh s i m s' : (do! r <- new_token (set_tmpl s i m) i None 0; write_tok (tmpl_set_tok (fst r) i (Some (snd r))) (snd r) (fun k => with_ref k 1)) = Ok s' -> pay_le s s'.
Proof.
  intros H. bind_inv H. destruct x as [s1 n]. cbn [fst snd] in H. apply pay_new in E. apply pay_write in H.
  eapply pay_trans; [|eapply pay_trans; [exact E|eapply pay_trans; [|exact H]]]; apply pay_same; reflexivity.
Qed.
Lemma pay_init s i esz s' : initialize_template s i esz = Ok s' -> pay_le s s'.
Proof.
  intros H. unfold initialize_template in H. set (s0 := if mem i (ts_reg s) then s else _) in *.
  assert (A : pay_le s s0) by (subst s0; destruct (mem i (ts_reg s)); apply pay_same; reflexivity). eapply pay_trans; [exact A|]. clear A. clearbody s0.
  destruct (tp_tok (ts_tmpl s0 i)) as [t|]; [|exact (pay_init_fresh _ _ _ _ H)]. bind_inv H. destruct (_ && _).
  - bind_inv H. eapply pay_trans; [exact (pay_free_value _ _ _ E0)|exact (pay_write _ _ _ _ H)].
  - bind_inv H. destruct x0 as [s1 r]. cbn [fst] in H. eapply pay_trans; [exact (pay_done _ _ _ _ E0)|]. eapply pay_trans; [|exact (pay_init_fresh _ _ _ _ H)]. apply pay_same; reflexivity.
Qed.
Lemma pay_copy s i s' o : writable_copy s i = Ok (s', o) -> pay_le s s'.
Proof.
  intros H. unfold writable_copy in H. destruct (tp_tok (ts_tmpl s i)) as [t|]; [|injection H as <- _; apply pay_refl]. bind_inv H. destruct (_ && _); [injection H as <- _; apply pay_refl|].
  destruct (_ && _); [injection H as <- _; apply pay_refl|]. bind_inv H. destruct x0 as [s1 p]. cbn [fst snd] in H. bind_inv H. destruct x0 as [s2 n]. cbn [fst snd] in H. bind_inv H. injection H as <- _.
  assert (A : pay_le s s1).
  { unfold copy_payload in E0. destruct (tk_val x); [|discriminate]. destruct (ts_pay s n0); [|discriminate]. destruct (_ <=? _); [|discriminate]. injection E0 as <- _. exact (pay_alloc s _). }
  eapply pay_trans; [exact A|]. eapply pay_trans; [exact (pay_new _ _ _ _ _ _ E1)|]. eapply pay_trans; [exact (pay_write _ _ _ _ E2)|]. apply pay_same; reflexivity.
Qed.
Lemma pay_step s o s' : top_step s o = Ok s' -> pay_le s s'.
Proof.
  intros H. destruct o as [i d|t|t|i t|i|i esz|i d|i d|i|]; cbn [top_step] in H.
  - pose proof (pay_alloc s d) as A. destruct (alloc_pay s d) as [s1 p]. cbn [fst] in A. bind_inv H. destruct x as [s2 n]. injection H as <-. eapply pay_trans; [exact A|exact (pay_new _ _ _ _ _ _ E)].
  - exact (pay_write _ _ _ _ H).
  - bind_inv H. destruct x as [s2 n]. injection H as <-. exact (pay_done _ _ _ _ E).
  - exact (pay_replace _ _ _ _ H).
  - exact (pay_replace _ _ _ _ H).
  - exact (pay_init _ _ _ _ H).
  - pose proof (pay_alloc s d) as A. destruct (alloc_pay s d) as [s1 p]. cbn [fst] in A. bind_inv H. destruct x as [s2 n]. injection H as <-. cbn [fst snd]. eapply pay_trans; [exact A|].
    eapply pay_trans; [exact (pay_init_value _ _ _ _ _ _ E)|]. apply pay_same; reflexivity.
  - pose proof (pay_alloc s d) as A. destruct (alloc_pay s d) as [s1 p]. cbn [fst] in A. bind_inv H. destruct x as [s2 n]. injection H as <-. eapply pay_trans; [exact A|exact (pay_init_value _ _ _ _ _ _ E)].
  - bind_inv H. destruct x as [s2 n]. injection H as <-. exact (pay_copy _ _ _ _ E).
  - exact (pay_copies _ _ _ H).
Qed.

(** *** A held value stays what it is *)
Lemma contents_payload s u d : contents s u = Some d -> exists p, payload s u = Some p /\ ts_pay s p = Some d.
Proof. unfold contents, payload. destruct (ts_tok s u) as [k|]; [|discriminate]. destruct (tk_val k) as [p|]; [|discriminate]. eauto. Qed.
Lemma payload_contents s u p : payload s u = Some p -> contents s u = ts_pay s p.
Proof. unfold contents, payload. destruct (ts_tok s u) as [k|]; [|discriminate]. intros ->. reflexivity. Qed.

Lemma keep s E o s' u d : tinv s (copies_of s) E -> op_ok s (copies_of s) E o -> top_step s o = Ok s' -> contents s u = Some d ->
  (0 < holders s' (copies_of s') (ext_step s E o) u)%nat ->
  (forall i, reuses o i -> tp_tok (ts_tmpl s i) = Some u -> holders s (copies_of s) E u <> 1%nat) -> contents s' u = Some d.
Proof.
  intros I Hop Hs Hc Hh Hr. destruct (contents_payload _ _ _ Hc) as (p & Hp & Hd). destruct (step_ok s E o I Hop) as (s1 & E1 & I1). rewrite Hs in E1. injection E1 as <-.
  destruct (step_keeps s E o s' u p I Hop Hs Hp) as [A|[A|(A & i & B1 & B2)]]; [|lia|destruct (Hr i B2 B1 A)].
  rewrite (payload_contents _ _ _ A). destruct (pay_step _ _ _ Hs) as (_ & M).
  assert (Hlt : (p < ts_pfresh s)%nat).
  { destruct (le_lt_dec (ts_pfresh s) p) as [L|L]; [|exact L]. rewrite (c_pfresh _ _ (ti_core _ _ _ I) p L) in Hd. discriminate. }
  destruct (M p Hlt) as [Q|Q]; [congruence|]. unfold payload in A. destruct (ts_tok s' u) as [k|] eqn:Ek; [|discriminate].
  destruct (c_val _ _ (ti_core _ _ _ I1) u k p Ek A) as (x & Hx & _). congruence.
Qed.

Lemma holders_same s C E E' u : tinv s C E -> tinv s C E' -> holders s C E u = holders s C E' u.
Proof.
  intros I I'. destruct (Nat.eq_dec (holders s C E u) (holders s C E' u)) as [Q|Q]; [exact Q|exfalso].
  assert (K : usable s u) by (destruct (Nat.eq_dec (holders s C E u) 0) as [Z|Z]; [eapply held_usable; [apply I'|lia]|eapply held_usable; [apply I|lia]]).
  destruct K as (K1 & K2). destruct (ts_tok s u) as [k|] eqn:Ek; [|congruence].
  pose proof (c_ref _ _ (ti_core _ _ _ I) _ _ Ek K2). pose proof (c_ref _ _ (ti_core _ _ _ I') _ _ Ek K2). lia.
Qed.

(** *** Taking and giving back one reference *)
Definition K (s : tst) (E : list nat) : Prop := tinv s (copies_of s) E.
Definition hold_of (s : tst) (E : list nat) (u : nat) : nat := holders s (copies_of s) E u.
Definition same_tmpl (s s' : tst) : Prop := ts_reg s' = ts_reg s /\ (forall i, ts_tmpl s' i = ts_tmpl s i) /\ copies_of s' = copies_of s.
Lemma same_tmpl_refl s : same_tmpl s s.
Proof. split; [reflexivity|]. split; reflexivity. Qed.
Lemma same_tmpl_trans a b c : same_tmpl a b -> same_tmpl b c -> same_tmpl a c.
Proof. intros (A1 & A2 & A3) (B1 & B2 & B3). split; [congruence|]. split; [|congruence]. intros i. rewrite B2. apply A2. Qed.
Lemma K_same s E E' u : K s E -> K s E' -> hold_of s E u = hold_of s E' u.
Proof. apply holders_same. Qed.
Lemma hold_same s s' E u : same_tmpl s s' -> hold_of s' E u = hold_of s E u.
Proof. intros (A & B & C). unfold hold_of, holders. rewrite C, (tmpl_holders_frame s s' u A B). reflexivity. Qed.
Lemma hold_count s E E' u : (count_occ Nat.eq_dec E u <= count_occ Nat.eq_dec E' u)%nat -> (hold_of s E u <= hold_of s E' u)%nat.
Proof. unfold hold_of, holders. lia. Qed.

Lemma hold_c s E tok s' : K s E -> tok_ok s (copies_of s) E tok -> hold_opt s tok = Ok s' ->
  K s' (oplus tok E) /\ same_tmpl s s' /\ forall u, contents s' u = contents s u.
Proof.
  intros I Ht H. destruct (hold_ok s _ E tok I Ht) as (s1 & A & B). rewrite H in A. injection A as <-.
  pose proof (copies_of_chain _ _ _ B) as Ec. unfold K, same_tmpl. rewrite Ec. split; [exact B|]. destruct tok as [t|]; [|injection H as <-; auto].
  unfold hold_opt, write_tok in H. bind_inv H. injection H as <-. split; [split; [reflexivity|split; reflexivity]|]. intros u. unfold contents. cbn [set_tok ts_tok ts_pay]. unfold get_tok in E0.
  unfold upd. destruct (Nat.eqb_spec u t) as [->|N]; [|reflexivity]. destruct (ts_tok s t) as [k|]; [|discriminate]. injection E0 as <-. reflexivity.
Qed.

Lemma done_c s E t s' r : K s E -> In t E -> done_using s (Some t) = Ok (s', r) ->
  K s' (remove1 t E) /\ same_tmpl s s' /\ forall u d, contents s u = Some d -> (0 < hold_of s' (remove1 t E) u)%nat -> contents s' u = Some d.
Proof.
  intros I Hin H. assert (Hs : top_step s (ODone t) = Ok s') by (cbn [top_step]; rewrite H; reflexivity).
  destruct (step_done s _ E t I Hin) as (s1 & A & B). rewrite Hs in A. injection A as <-. pose proof (copies_of_chain _ _ _ B) as Ec.
  destruct (done_tmpl _ _ _ _ H) as (R & T). assert (Q : K s' (remove1 t E)) by (unfold K; rewrite Ec; exact B). split; [exact Q|]. split; [split; [exact R|split; [intros i; rewrite T; reflexivity|exact Ec]]|].
  intros u d Hc Hh. eapply (keep s E (ODone t) s' u d); eauto.
Qed.

(** What a schedule call does to the token store; [q'] is the new queue. *)
Definition moved (s : tst) (E : list nat) (tok : option nat) (s' : tst) (q' : list event) : Prop :=
  exists E', K s' E' /\ held_by E' q' /\ same_tmpl s s' /\ (forall u, Some u <> tok -> (hold_of s' E' u <= hold_of s E u)%nat) /\
    forall u d, contents s u = Some d -> (0 < hold_of s' E' u)%nat -> contents s' u = Some d.

Lemma oplus_count tok E u : Some u <> tok -> count_occ Nat.eq_dec (oplus tok E) u = count_occ Nat.eq_dec E u.
Proof. intros H. destruct tok as [t|]; [|reflexivity]. cbn. destruct (Nat.eq_dec t u); [congruence|reflexivity]. Qed.
Lemma moved_hold s E tok s1 q' : K s E -> tok_ok s (copies_of s) E tok -> hold_opt s tok = Ok s1 -> held_by (oplus tok E) q' -> moved s E tok s1 q'.
Proof.
  intros I Ht H Hq. destruct (hold_c s E tok s1 I Ht H) as (A & B & C). exists (oplus tok E). split; [exact A|]. split; [exact Hq|]. split; [exact B|]. split.
  - intros u Hu. rewrite (hold_same s s1 _ u B). apply hold_count. rewrite oplus_count by exact Hu. lia.
  - intros u d Hc _. rewrite C. exact Hc.
Qed.
Lemma moved_done s E tok s1 x s2 r q' E2 : K s E -> tok_ok s (copies_of s) E tok -> hold_opt s tok = Ok s1 ->
  done_using s1 x = Ok (s2, r) -> (forall t, x = Some t -> In t (oplus tok E)) -> K s2 E2 -> held_by E2 q' -> moved s E tok s2 q'.
Proof.
  intros I Ht H Hd Hx K2 Hq. destruct (hold_c s E tok s1 I Ht H) as (A & B & C). destruct x as [t|].
  2:{ injection Hd as <- _. exists E2. split; [exact K2|]. split; [exact Hq|]. split; [exact B|]. split.
      - intros u Hu. rewrite (K_same s1 E2 (oplus tok E) u K2 A), (hold_same s s1 _ u B). apply hold_count. rewrite oplus_count by exact Hu. lia.
      - intros u d Hc _. rewrite C. exact Hc. }
  destruct (done_c s1 (oplus tok E) t s2 r A (Hx t eq_refl) Hd) as (A1 & B1 & C1). exists E2. split; [exact K2|]. split; [exact Hq|]. split; [exact (same_tmpl_trans _ _ _ B B1)|]. split.
  - intros u Hu. rewrite (K_same s2 E2 _ u K2 A1), (hold_same s1 s2 _ u B1), (hold_same s s1 _ u B). apply hold_count. rewrite <- (oplus_count tok E u Hu).
    pose proof (count_remove1 (oplus tok E) t u (Hx t eq_refl)). lia.
  - intros u d Hc Hh. rewrite (K_same s2 E2 _ u K2 A1) in Hh. apply C1; [rewrite C; exact Hc|exact Hh].
Qed.
Lemma moved_release s E tok s1 s2 r q : K s E -> tok_ok s (copies_of s) E tok -> hold_opt s tok = Ok s1 -> done_using s1 tok = Ok (s2, r) -> held_by E q -> moved s E tok s2 q.
Proof.
  intros I Ht H Hd Hq. destruct (hold_c s E tok s1 I Ht H) as (A & B & C). eapply (moved_done s E tok s1 tok s2 r q E); try eassumption.
  - intros t ->. left. reflexivity.
  - destruct tok as [t|]; [|injection Hd as <- _; exact A]. destruct (done_c s1 (t :: E) t s2 r A (or_introl eq_refl) Hd) as (A1 & _). rewrite remove1_head in A1. exact A1.
Qed.
Lemma moved_replace s E tok s1 e v tr t e' : K s E -> tok_ok s (copies_of s) E tok -> hold_opt s tok = Ok s1 -> e_tok e = s1 -> held_by E (e_q e) -> find_ev (e_q e) (Some tr) t = Some v ->
  replace_ev_token e v (Some tr) t tok = Ok e' -> moved s E tok (e_tok e') (e_q e').
Proof.
  intros I Ht H He Hq Hf Hr. destruct (hold_c s E tok s1 I Ht H) as (A & B & C). rewrite <- He in *. unfold K in A.
  destruct (replace_tok_ok (copies_of (e_tok e)) e E tr t tok v A Hq Hf) as (e2 & R & E2 & T2 & Q2). rewrite Hr in R. injection R as <-.
  assert (K2 : K (e_tok e') E2) by (unfold K; rewrite (copies_of_chain _ _ _ T2); exact T2). pose proof (find_ev_some _ _ _ _ Hf) as (Hv & _).
  unfold replace_ev_token in Hr. destruct (opt_eqb (ev_tok v) tok).
  - cbn [bind] in Hr. injection Hr as <-. eapply (moved_done s E tok _ None _ NOT_FREED); try eassumption; [reflexivity|discriminate].
  - bind_inv Hr. injection Hr as <-. unfold release in E0. bind_inv E0. injection E0 as <-. destruct x0 as [s2 r]. eapply (moved_done s E tok _ (ev_tok v) s2 r); try eassumption.
    intros u Hu. destruct tok as [w|]; [right|]; eapply held_in; eassumption.
Qed.

Lemma finish_moved nd s0 E tok e tr b e' h : K s0 E -> tok_ok s0 (copies_of s0) E tok -> hold_opt s0 tok = Ok (e_tok e) -> held_by E (e_q e) ->
  sched_finish nd e tr b tok = Ok (e', h) -> moved s0 E tok (e_tok e') (e_q e').
Proof.
  intros I Ht Hh Hq H. unfold sched_finish in H. cbv zeta in H. destruct (after_stop e _).
  - bind_inv H. injection H as <- <-. unfold release in E0. bind_inv E0. injection E0 as <-. destruct x0 as [s2 r]. exact (moved_release s0 E tok _ s2 r _ I Ht Hh E1 Hq).
  - unfold take_handle in H. destruct (_ <? INT_MAX); [|discriminate]. injection H as <- <-. eapply moved_hold; [exact I|exact Ht|exact Hh|]. apply held_add, Hq.
Qed.

Lemma sched_moved nd now e tr extra tok e' h E : K (e_tok e) E -> held_by E (e_q e) -> tok_ok (e_tok e) (copies_of (e_tok e)) E tok -> tag_le (e_cur e) (e_stop e) ->
  sched nd now e (Some tr) extra tok = Ok (e', h) -> moved (e_tok e) E tok (e_tok e') (e_q e').
Proof.
  intros I Hq Ht Hst H. unfold sched in H. apply after_stop_spec in Hst. rewrite Hst in H. bind_inv H. rename x into s1. cbv zeta in H.
  change (e_tr (with_tok e s1)) with (e_tr e) in H. change (e_q (with_tok e s1)) with (e_q e) in H. change (e_cur (with_tok e s1)) with (e_cur e) in H.
  bind_inv H. bind_inv H. assert (F : forall b, sched_finish nd (with_tok e s1) tr b tok = Ok (e', h) -> moved (e_tok e) E tok (e_tok e') (e_q e'))
    by (intros b; apply finish_moved; assumption).
  destruct (_ <=? 0).
  - destruct (find_ev _ _ _); [|exact (F _ H)]. bind_inv H. destruct (after_stop (with_tok e s1) x1); injection H as <- _; (eapply moved_hold; [exact I|exact Ht|exact E0|]); [apply held_keep|apply held_add]; exact Hq.
  - destruct (_ && _); [|exact (F _ H)]. bind_inv H. destruct (ttime x0 <? x1); [|exact (F _ H)]. destruct (tg_policy _); [exact (F _ H)| |].
    + bind_inv H. injection H as <- <-. unfold release in E4. bind_inv E4. injection E4 as <-. destruct x3 as [s2 r]. exact (moved_release _ E tok _ s2 r _ I Ht E0 E5 Hq).
    + destruct (find_ev _ _ _) as [v|] eqn:Ef; [|exact (F _ H)]. bind_inv H. injection H as <- <-. eapply (moved_replace _ E tok s1 (with_tok e s1)); try eassumption; reflexivity.
Qed.
Lemma at_moved e tr t tok e' h E : K (e_tok e) E -> held_by E (e_q e) -> tok_ok (e_tok e) (copies_of (e_tok e)) E tok ->
  sched_at e tr t tok = Ok (e', h) -> moved (e_tok e) E tok (e_tok e') (e_q e').
Proof.
  intros I Hq Ht H. unfold sched_at in H. destruct (_ && _).
  { injection H as <- <-. exists E. split; [exact I|]. split; [exact Hq|]. split; [apply same_tmpl_refl|]. split; [lia|auto]. }
  bind_inv H. rename x into s1. cbv zeta in H.
  change (e_tr (with_tok e s1)) with (e_tr e) in H. change (e_q (with_tok e s1)) with (e_q e) in H. destruct (after_stop _ t).
  { bind_inv H. injection H as <- <-. unfold release in E1. bind_inv E1. injection E1 as <-. destruct x0 as [s2 r]. exact (moved_release _ E tok _ s2 r _ I Ht E0 E2 Hq). }
  assert (F : forall v, take_handle (insert_ev (with_tok e s1) (mkEv v (Some tr) tok)) = Ok (e', h) -> moved (e_tok e) E tok (e_tok e') (e_q e')).
  { intros v H0. unfold take_handle in H0. destruct (_ <? INT_MAX); [|discriminate]. injection H0 as <- <-. eapply moved_hold; [exact I|exact Ht|exact E0|]. apply held_add, Hq. }
  destruct (find_ev _ _ _) as [v|] eqn:Ef; [|exact (F _ H)]. destruct (tg_policy _).
  - destruct (after_stop _ _); [|exact (F _ H)]. injection H as <- <-. eapply moved_hold; [exact I|exact Ht|exact E0|apply held_keep, Hq].
  - destruct (opt_eqb _ _).
    + injection H as <- <-. eapply moved_hold; [exact I|exact Ht|exact E0|apply held_keep, Hq].
    + bind_inv H. injection H as <- <-. unfold release in E1. bind_inv E1. injection E1 as <-. destruct x0 as [s2 r]. exact (moved_release _ E tok _ s2 r _ I Ht E0 E2 Hq).
  - bind_inv H. injection H as <- <-. eapply (moved_replace _ E tok s1 (with_tok e s1)); try eassumption; reflexivity.
Qed.

(** *** One event is taken out of the queue *)
Lemma replace_frame s i o s' : replace_template_token s i o = Ok s' -> ts_reg s' = ts_reg s /\ (forall j, j <> i -> ts_tmpl s' j = ts_tmpl s j) /\ tp_tok (ts_tmpl s' i) = o.
Proof.
  intros H. unfold replace_template_token in H. destruct (opt_eqb _ _) eqn:Eo; [injection H as <-; apply opt_eqb_spec in Eo; auto|]. bind_inv H. destruct x as [s1 r]. cbn [fst] in H. bind_inv H. injection H as <-.
  apply done_tmpl in E. destruct E as (A & B). assert (Q : ts_reg x = ts_reg s1 /\ ts_tmpl x = ts_tmpl s1).
  { destruct o as [t|]; [|injection E0 as <-; auto]. unfold write_tok in E0. bind_inv E0. injection E0 as <-. auto. }
  destruct Q as (Q1 & Q2). unfold tmpl_set_tok, set_tmpl. cbn [ts_reg ts_tmpl]. split; [congruence|]. split.
  - intros j N. rewrite upd_neq by exact N. congruence.
  - rewrite upd_eq. reflexivity.
Qed.
Definition bounded (s : tst) (E : list nat) : Prop := forall u, Z.of_nat (hold_of s E u) + 1 < two64.
Definition minus (o : option nat) (E : list nat) : list nat := match o with Some t => remove1 t E | None => E end.
Lemma hold_replace s s' i o E u : NoDup (ts_reg s) -> In i (ts_reg s) -> ts_reg s' = ts_reg s -> (forall j, j <> i -> ts_tmpl s' j = ts_tmpl s j) -> tp_tok (ts_tmpl s' i) = o -> copies_of s' = copies_of s ->
  (hold_of s' E u + has (tp_tok (ts_tmpl s i)) u = hold_of s E u + has o u)%nat.
Proof.
  intros Hnd Hi Hr Ht Ho Hc. unfold hold_of, holders, tmpl_holders. rewrite Hc, Hr.
  pose proof (tcount_upd (ts_reg s) (fun j => tp_tok (ts_tmpl s j)) i o u Hnd Hi) as A. cbv beta in A.
  rewrite (tcount_ext _ (fun j => tp_tok (ts_tmpl s' j)) (fun j => if Nat.eqb j i then o else tp_tok (ts_tmpl s j))); [lia|].
  intros j _. destruct (Nat.eqb_spec j i) as [->|N]; [exact Ho|]. rewrite Ht by exact N. reflexivity.
Qed.
Lemma release_opt s E o s' r : K s E -> (forall t, o = Some t -> In t E) -> done_using s o = Ok (s', r) ->
  K s' (minus o E) /\ same_tmpl s s' /\ (forall u, (hold_of s' (minus o E) u + has o u = hold_of s E u)%nat) /\
  forall u d, contents s u = Some d -> (0 < hold_of s' (minus o E) u)%nat -> contents s' u = Some d.
Proof.
  intros I Hin H. destruct o as [t|].
  - destruct (done_c s E t s' r I (Hin t eq_refl) H) as (A & B & C). split; [exact A|]. split; [exact B|]. split; [|exact C]. intros u. rewrite (hold_same _ _ _ _ B). unfold hold_of, holders. cbn [minus].
    pose proof (count_remove1 E t u (Hin t eq_refl)) as Q. unfold has. rewrite (Nat.eqb_sym t u). lia.
  - injection H as <- _. split; [exact I|]. split; [apply same_tmpl_refl|]. split; [intros u; cbn; lia|auto].
Qed.
Lemma pop_tok s E tr o s1 s2 r : K s E -> bounded s E -> (forall t, o = Some t -> In t E /\ In tr (ts_reg s)) ->
  replace_template_token s tr o = Ok s1 -> done_using s1 o = Ok (s2, r) ->
  K s2 (minus o E) /\ ts_reg s2 = ts_reg s /\ tp_tok (ts_tmpl s2 tr) = o /\ (forall i, i <> tr -> ts_tmpl s2 i = ts_tmpl s i) /\
  (forall u, (hold_of s2 (minus o E) u <= hold_of s E u)%nat) /\
  forall u d, contents s u = Some d -> (0 < hold_of s2 (minus o E) u)%nat -> contents s2 u = Some d.
Proof.
  intros I Hb Hin Hr Hd. destruct (replace_frame _ _ _ _ Hr) as (F1 & F2 & F3).
  assert (M : K s1 E /\ copies_of s1 = copies_of s /\ (forall u, (hold_of s1 E u <= hold_of s E u + has o u)%nat) /\ forall u d, contents s u = Some d -> (0 < hold_of s1 E u)%nat -> contents s1 u = Some d).
  { destruct (opt_eqb (tp_tok (ts_tmpl s tr)) o) eqn:Eo.
    { unfold replace_template_token in Hr. rewrite Eo in Hr. injection Hr as <-. split; [exact I|]. split; [reflexivity|]. split; [lia|auto]. }
    assert (Hi : In tr (ts_reg s)).
    { destruct o as [t|]; [exact (proj2 (Hin t eq_refl))|]. destruct (in_dec Nat.eq_dec tr (ts_reg s)) as [Hi|Hi]; [exact Hi|]. rewrite (ti_unreg _ _ _ I tr Hi) in Eo. discriminate. }
    set (op := match o with Some t => OSetToken tr t | None => OClear tr end).
    assert (Hok : op_ok s (copies_of s) E op).
    { destruct o as [t|]; cbn; [|exact Hi]. split; [exact Hi|]. destruct (Hin t eq_refl) as (Ht & _). split; [eapply held_usable; [apply I|]; apply holders_E, Ht|]. apply Hb. }
    assert (Hs : top_step s op = Ok s1) by (destruct o as [t|]; exact Hr).
    destruct (step_ok s E op I Hok) as (s1' & A & B). rewrite Hs in A. injection A as <-. assert (Ee : ext_step s E op = E) by (destruct o; reflexivity). rewrite Ee in B.
    assert (Ec : copies_of s1 = copies_of s).
    { destruct (replace_ok s (copies_of s) E tr o I Hi) as (s3 & A & T & _); [|rewrite Hr in A; injection A as <-; exact (copies_of_chain _ _ _ T)].
      destruct o as [t|]; [|exact Logic.I]. exact (proj2 Hok). }
    split; [exact B|]. split; [exact Ec|]. split.
    - intros u. pose proof (hold_replace s s1 tr o E u (ti_ndreg _ _ _ I) Hi F1 F2 F3 Ec). lia.
    - intros u d Hc Hh. eapply (keep s E op s1 u d); try eassumption; [rewrite Ee; exact Hh|]. intros i. destruct o; intros []. }
  destruct M as (M1 & M2 & M3 & M4). destruct (release_opt s1 E o s2 r M1 (fun t Ht => proj1 (Hin t Ht)) Hd) as (A & (B1 & B2 & B3) & C & D).
  split; [exact A|]. split; [congruence|]. split; [rewrite B2; exact F3|]. split; [intros i N; rewrite B2; apply F2, N|]. split.
  - intros u. specialize (C u). specialize (M3 u). lia.
  - intros u d Hc Hh. apply D; [|exact Hh]. apply M4; [exact Hc|]. specialize (C u). lia.
Qed.

Lemma timer_tok nd now e tr extra e' h : tg_timer (e_tr e tr) = true -> sched nd now e (Some tr) extra None = Ok (e', h) -> e_tok e' = e_tok e.
Proof.
  intros Ht H. unfold sched in H. destruct (after_stop e (e_cur e)); [injection H as <- _; reflexivity|]. cbn [hold_opt bind] in H. cbv zeta in H.
  change (e_tr (with_tok e (e_tok e))) with (e_tr e) in H. rewrite Ht in H. cbn [bind negb andb] in H. bind_inv H.
  assert (F : forall b, sched_finish nd (with_tok e (e_tok e)) tr b None = Ok (e', h) -> e_tok e' = e_tok e).
  { intros b H0. unfold sched_finish in H0. cbv zeta in H0. destruct (after_stop _ _); [injection H0 as <- _; reflexivity|]. unfold take_handle in H0. destruct (_ <? INT_MAX); [|discriminate]. injection H0 as <- _. reflexivity. }
  destruct (_ <=? 0); [|exact (F _ H)]. destruct (find_ev _ _ _); [|exact (F _ H)]. bind_inv H. destruct (after_stop _ x0); injection H as <- _; reflexivity.
Qed.
Lemma minus_held E o l : held_by E (o :: l) -> held_by (minus (ev_tok o) E) l.
Proof.
  intros (L & P). unfold queue_tokens in P. cbn [flat_map] in P. change (flat_map _ l) with (queue_tokens l) in P. exists L. destruct (ev_tok o) as [t|]; [|exact P]. cbn [minus app] in *.
  assert (Hin : In t E) by (apply (Permutation_in t (Permutation_sym P)); left; reflexivity). apply remove1_perm in Hin. apply (Permutation_cons_inv (a := t)). rewrite <- Hin. exact P.
Qed.
Definition token_known (s : tst) (v : event) : Prop := forall t, ev_tok v = Some t -> exists tr, ev_trig v = Some tr /\ In tr (ts_reg s).

Definition popped (s s' : rt) (l : list event) (E E' : list nat) : Prop :=
  let k := e_tok (r_env s) in let k' := e_tok (r_env s') in
  K k' E' /\ ts_reg k' = ts_reg k /\ (forall u, (hold_of k' E' u <= hold_of k E u)%nat) /\
  (forall u d, contents k u = Some d -> (0 < hold_of k' E' u)%nat -> contents k' u = Some d) /\
  (forall v, In v (e_q (r_env s')) -> In v (e_q (r_env s)) \/ ev_tok v = None) /\
  (forall i, tg_policy (e_tr (r_env s') i) = tg_policy (e_tr (r_env s) i)) /\
  (forall i, (forall v, In v l -> ev_trig v <> Some i) -> ts_tmpl k' i = ts_tmpl k i) /\
  (forall a v b i, l = a ++ v :: b -> ev_trig v = Some i -> (forall w, In w b -> ev_trig w <> Some i) -> tp_tok (ts_tmpl k' i) = ev_tok v).

Lemma sched_policy nd now e tr extra tok e' h : sched nd now e (Some tr) extra tok = Ok (e', h) -> forall u, tg_policy (e_tr e' u) = tg_policy (e_tr e u).
Proof.
  intros H u. apply sched_call in H. destruct H as (_ & [A B|v A _ _ _ B|t A B D F G I|b A B D F]); rewrite B; auto;
    (destruct (Nat.eq_dec u tr) as [->|N]; [rewrite with_last_same; reflexivity|rewrite with_last_other by exact N; reflexivity]).
Qed.

Lemma pop_one_v P nd now s v s' l E : pop_one P nd now s v = Ok s' -> timers_logical (r_env s) -> NEVER < ttime (e_cur (r_env s)) < FOREVER ->
  K (e_tok (r_env s)) E -> bounded (e_tok (r_env s)) E -> held_by E (v :: l ++ e_q (r_env s)) -> token_known (e_tok (r_env s)) v ->
  popped s s' [v] E (minus (ev_tok v) E) /\ held_by (minus (ev_tok v) E) (l ++ e_q (r_env s')).
Proof.
  intros H Htl Hnv I Hb Hh Hk. unfold pop_one in H. destruct (ev_trig v) as [tr|] eqn:Ev.
  2:{ injection H as <-. assert (Hn : ev_tok v = None) by (destruct (ev_tok v) as [t|] eqn:Et; [|reflexivity]; destruct (Hk t Et) as (tr & A & _); congruence).
      split; [|apply minus_held, Hh]. rewrite Hn. cbn [minus]. unfold popped. cbv zeta. split; [exact I|]. split; [reflexivity|]. split; [lia|]. split; [auto|]. split; [auto|]. split; [auto|]. split; [auto|].
      intros a w b i Hl Hw _. destruct a as [|x a]; [injection Hl as <- _; congruence|]. injection Hl as _ Hl. destruct a; discriminate. }
  cbv zeta in H. bind_inv H. rename x into s1. bind_inv H. rename x into k1. bind_inv H. destruct x as [k2 r]. injection H as <-. cbn [fst] in *.
  assert (Q : e_tok (r_env s1) = e_tok (r_env s) /\ (forall i, tg_policy (e_tr (r_env s1) i) = tg_policy (e_tr (r_env s) i)) /\
              (e_q (r_env s1) = e_q (r_env s) \/ exists w, e_q (r_env s1) = w :: e_q (r_env s) /\ ev_tok w = None)).
  { destruct (tg_timer (e_tr (r_env s) tr) && (0 <? tg_period (e_tr (r_env s) tr))) eqn:Et.
    - bind_inv E0. injection E0 as <-. destruct x as [e' h]. cbn [r_env fst]. apply andb_true_iff in Et. destruct Et as (Et & Ep). split; [exact (timer_tok _ _ _ _ _ _ _ Et E3)|].
      split; [exact (sched_policy _ _ _ _ _ _ _ _ E3)|]. destruct (timer_effect nd now (r_env s) tr e' h Et (Htl tr Et) ltac:(lia) Hnv E3) as (_ & [A|(t & A & _)]); [left; exact A|right]. eexists. split; [exact A|reflexivity].
    - unfold mark in E0. destruct (_ <? INT_MAX); [|discriminate]. injection E0 as <-. cbn [r_env]. auto. }
  destruct Q as (Q1 & Q2 & Q3). rewrite Q1 in E1. cbn [rt_env r_env with_tok e_tok e_q e_tr].
  assert (Hin : forall t, ev_tok v = Some t -> In t E /\ In tr (ts_reg (e_tok (r_env s)))).
  { intros t Ht. split; [eapply held_in; [exact Hh|left; reflexivity|exact Ht]|]. destruct (Hk t Ht) as (tr' & A & B). congruence. }
  destruct (pop_tok _ E tr (ev_tok v) k1 k2 r I Hb Hin E1 E2) as (A & B & C & D & F & G). split.
  - unfold popped. cbv zeta. cbn [rt_env r_env with_tok e_tok e_q e_tr]. split; [exact A|]. split; [exact B|]. split; [exact F|]. split; [exact G|]. split.
    { intros w Hw. destruct Q3 as [Q3|(x & Q3 & Q4)]; rewrite Q3 in Hw; [left; exact Hw|]. destruct Hw as [<-|Hw]; [right; exact Q4|left; exact Hw]. }
    split; [exact Q2|]. split.
    + intros i Hi. apply D. intros ->. exact (Hi v (or_introl eq_refl) Ev).
    + intros a w b i Hl Hw _. destruct a as [|x a]; [injection Hl as <- _|injection Hl as _ Hl; destruct a; discriminate]. rewrite Ev in Hw. injection Hw as <-. exact C.
  - pose proof (minus_held _ _ _ Hh) as M. destruct Q3 as [Q3|(x & Q3 & Q4)]; rewrite Q3; [exact M|]. destruct M as (L & M). exists L. rewrite M. apply Permutation_app_tail.
    rewrite !queue_tokens_app. unfold queue_tokens at 4. cbn [flat_map]. rewrite Q4. reflexivity.
Qed.

Lemma pop_all_v P nd now : forall l s s' E, pop_all P nd now s l = Ok s' -> timers_logical (r_env s) -> (l <> [] -> NEVER < ttime (e_cur (r_env s)) < FOREVER) ->
  K (e_tok (r_env s)) E -> bounded (e_tok (r_env s)) E -> held_by E (l ++ e_q (r_env s)) -> (forall v, In v l -> token_known (e_tok (r_env s)) v) ->
  exists E', popped s s' l E E' /\ held_by E' (e_q (r_env s')).
Proof.
  induction l as [|v l IH]; intros s s' E H Htl Hnv I Hb Hh Hk; cbn in H.
  { injection H as <-. exists E. split; [|exact Hh]. unfold popped. cbv zeta. split; [exact I|]. split; [reflexivity|]. split; [lia|]. split; [auto|]. split; [auto|]. split; [auto|]. split; [auto|].
    intros a w b i Hl. destruct a; discriminate. }
  bind_inv H. rename x into s1. specialize (Hnv ltac:(intros; discriminate)).
  destruct (pop_one_v P nd now s v s1 l E E0 Htl Hnv I Hb Hh (Hk v (or_introl eq_refl))) as ((A1 & A2 & A3 & A4 & A5 & A6 & A7 & A8) & A9). cbv zeta in *.
  pose proof (pop_one_grown _ _ _ _ _ _ E0 Htl Hnv) as ((C1 & _) & _ & _ & G).
  destruct (IH s1 s' (minus (ev_tok v) E) H) as (E' & (B1 & B2 & B3 & B4 & B5 & B6 & B7 & B8) & B9).
  - exact (timers_logical_ext _ _ G Htl).
  - intros _. rewrite C1. exact Hnv.
  - exact A1.
  - intros u. specialize (A3 u). specialize (Hb u). lia.
  - exact A9.
  - intros w Hw t Ht. rewrite A2. exact (Hk w (or_intror Hw) t Ht).
  - cbv zeta in *. exists E'. split; [|exact B9]. unfold popped. cbv zeta. split; [exact B1|]. split; [congruence|]. split; [intros u; specialize (A3 u); specialize (B3 u); lia|].
    split; [intros u d Hc Hu; apply B4; [|exact Hu]; apply A4; [exact Hc|]; specialize (B3 u); lia|].
    split; [intros w Hw; destruct (B5 w Hw) as [Q|Q]; [apply A5, Q|right; exact Q]|]. split; [intros i; rewrite B6; apply A6|]. split.
    + intros i Hi. rewrite B7 by (intros w Hw; apply Hi; right; exact Hw). apply A7. intros w [<-|[]]. apply Hi. left. reflexivity.
    + intros a w b i Hl Hw Hlast. destruct a as [|x a]; cbn in Hl; injection Hl as -> Hl.
      * subst b. rewrite B7 by exact Hlast. eapply (A8 [] w [] i); [reflexivity|exact Hw|]. intros y [].
      * eapply B8; eassumption.
Qed.

(** *** Which templates an operation writes *)
Definition writes (o : top) (j : nat) : Prop := match o with OSetToken i _ | OClear i | OInit i _ | OSet i _ => i = j | _ => False end.
Lemma free_value_tmpl s t s' : free_token_value s t = Ok s' -> ts_reg s' = ts_reg s /\ ts_tmpl s' = ts_tmpl s.
Proof. intros H. unfold free_token_value in H. bind_inv H. destruct (tk_val x) as [p|]; [|injection H as <-; auto]. destruct (ts_pay s p); [|discriminate]. injection H as <-. auto. Qed.
Lemma write_tmpl s t f s' : write_tok s t f = Ok s' -> ts_reg s' = ts_reg s /\ ts_tmpl s' = ts_tmpl s.
Proof. intros H. unfold write_tok in H. bind_inv H. injection H as <-. auto. Qed.
Lemma new_tmpl s i v len s' n : new_token s i v len = Ok (s', n) -> ts_reg s' = ts_reg s /\ ts_tmpl s' = ts_tmpl s.
Proof. intros H. unfold new_token in H. destruct (ts_bin s); [injection H as <- _; auto|]. bind_inv H. injection H as <- _. auto. Qed.
Lemma get_tmpl s i s' r : get_token s i = Ok (s', r) -> ts_reg s' = ts_reg s /\ ts_tmpl s' = ts_tmpl s.
Proof.
  intros H. unfold get_token in H.
  assert (F : (do! r <- new_token s i None 0; do! s2 <- write_tok (fst r) (snd r) (fun k => with_ref k 1); Ok (s2, snd r)) = Ok (s', r) -> ts_reg s' = ts_reg s /\ ts_tmpl s' = ts_tmpl s).
  { intros H0. bind_inv H0. destruct x as [s1 n]. cbn [fst snd] in H0. bind_inv H0. injection H0 as <- _. apply new_tmpl in E. apply write_tmpl in E0. destruct E, E0. split; congruence. }
  destruct (tp_tok (ts_tmpl s i)) as [t|]; [|exact (F H)]. bind_inv H. destruct (tk_ref x =? 1); [|exact (F H)]. bind_inv H. injection H as <- _. exact (free_value_tmpl _ _ _ E0).
Qed.
Lemma init_value_tmpl s i v len s' r : initialize_token_with_value s i v len = Ok (s', r) -> ts_reg s' = ts_reg s /\ ts_tmpl s' = ts_tmpl s.
Proof.
  intros H. unfold initialize_token_with_value in H. bind_inv H. destruct x as [s1 n]. cbn [fst snd] in H. bind_inv H. injection H as <- _. apply get_tmpl in E. apply write_tmpl in E0. destruct E, E0. split; congruence.
Qed.
Lemma step_tmpl s o s' : top_step s o = Ok s' -> incl (ts_reg s) (ts_reg s') /\ forall j, ~ writes o j -> ts_tmpl s' j = ts_tmpl s j.
Proof.
  assert (Q : forall s s' : tst, ts_reg s' = ts_reg s /\ ts_tmpl s' = ts_tmpl s -> incl (ts_reg s) (ts_reg s') /\ forall j, ~ writes o j -> ts_tmpl s' j = ts_tmpl s j).
  { intros a b (A & B). rewrite A, B. split; [apply incl_refl|auto]. }
  intros H. destruct o as [i d|t|t|i t|i|i esz|i d|i d|i|]; cbn [top_step writes] in *.
  - destruct (alloc_pay s d) as [s1 p] eqn:Ea. bind_inv H. destruct x as [s2 n]. injection H as <-. unfold alloc_pay in Ea. injection Ea as <- _. apply new_tmpl in E. apply Q in E. exact E.
  - apply Q, (write_tmpl _ _ _ _ H).
  - bind_inv H. destruct x as [s2 n]. injection H as <-. apply Q, (done_tmpl _ _ _ _ E).
  - apply replace_frame in H. destruct H as (A & B & _). rewrite A. split; [apply incl_refl|]. intros j N. apply B. congruence.
  - apply replace_frame in H. destruct H as (A & B & _). rewrite A. split; [apply incl_refl|]. intros j N. apply B. congruence.
  - unfold initialize_template in H. set (s0 := if mem i (ts_reg s) then s else _) in *.
    assert (A : incl (ts_reg s) (ts_reg s0) /\ ts_tmpl s0 = ts_tmpl s) by (subst s0; destruct (mem i (ts_reg s)); split; try reflexivity; [apply incl_refl|cbn; apply incl_tl, incl_refl]).
    assert (F : forall m a, (do! r <- new_token (set_tmpl a i m) i None 0; write_tok (tmpl_set_tok (fst r) i (Some (snd r))) (snd r) (fun k => with_ref k 1)) = Ok s' ->
               ts_reg s' = ts_reg a /\ forall j, i <> j -> ts_tmpl s' j = ts_tmpl a j).
    { intros m a H0. bind_inv H0. destruct x as [s1 n]. cbn [fst snd] in H0. apply new_tmpl in E. apply write_tmpl in H0. destruct E as (E1 & E2), H0 as (E3 & E4). rewrite E3, E4. cbn [tmpl_set_tok set_tmpl ts_reg ts_tmpl] in *. rewrite E1. split; [reflexivity|].
      intros j N. rewrite upd_neq by congruence. rewrite E2, upd_neq by congruence. reflexivity. }
    clearbody s0. destruct A as (A & B). assert (G : (ts_reg s' = ts_reg s0 /\ forall j, i <> j -> ts_tmpl s' j = ts_tmpl s0 j) -> incl (ts_reg s) (ts_reg s') /\ forall j, i <> j -> ts_tmpl s' j = ts_tmpl s j).
    { intros (G1 & G2). rewrite G1. split; [exact A|]. intros j N. rewrite G2, B by exact N. reflexivity. }
    apply G. destruct (tp_tok (ts_tmpl s0 i)) as [t|]; [|exact (F _ _ H)]. bind_inv H. destruct (_ && _).
    + bind_inv H. apply free_value_tmpl in E0. apply write_tmpl in H. destruct E0 as (C1 & C2), H as (C3 & C4). rewrite C3, C4, C1, C2. auto.
    + bind_inv H. destruct x0 as [s1 r]. cbn [fst] in H. apply done_tmpl in E0. destruct E0 as (C1 & C2). apply F in H. cbn [tmpl_set_tok set_tmpl ts_reg ts_tmpl] in H. destruct H as (C3 & C4). rewrite C3. split; [exact C1|].
      intros j N. rewrite C4 by exact N. rewrite upd_neq by congruence. rewrite C2. reflexivity.
  - destruct (alloc_pay s d) as [s1 p] eqn:Ea. bind_inv H. destruct x as [s2 n]. injection H as <-. unfold alloc_pay in Ea. injection Ea as <- _. apply init_value_tmpl in E. cbn [fst snd tmpl_set_tok set_tmpl ts_reg ts_tmpl] in *.
    destruct E as (A & B). rewrite A, B. split; [apply incl_refl|]. intros j N. apply upd_neq. congruence.
  - destruct (alloc_pay s d) as [s1 p] eqn:Ea. bind_inv H. destruct x as [s2 n]. injection H as <-. unfold alloc_pay in Ea. injection Ea as <- _. apply init_value_tmpl in E. apply Q in E. exact E.
  - bind_inv H. destruct x as [s2 n]. injection H as <-. apply Q. unfold writable_copy in E. destruct (tp_tok (ts_tmpl s i)) as [t|]; [|injection E as <- _; auto]. bind_inv E. destruct (_ && _); [injection E as <- _; auto|].
    destruct (_ && _); [injection E as <- _; auto|]. bind_inv E. destruct x0 as [s3 p]. cbn [fst snd] in E. bind_inv E. destruct x0 as [s4 m]. cbn [fst snd] in E. bind_inv E. injection E as <- _.
    assert (A : ts_reg s3 = ts_reg s /\ ts_tmpl s3 = ts_tmpl s).
    { unfold copy_payload in E1. destruct (tk_val x); [|discriminate]. destruct (ts_pay s n0); [|discriminate]. destruct (_ <=? _); [|discriminate]. injection E1 as <- _. auto. }
    apply new_tmpl in E2. apply write_tmpl in E3. destruct A, E2, E3. cbn. split; congruence.
  - apply Q, (end_tmpl _ _ _ H).
Qed.

(** Two holders. *)
Lemma tcount_two reg f i j t : NoDup reg -> In i reg -> In j reg -> i <> j -> f i = Some t -> f j = Some t -> (2 <= tcount reg f t)%nat.
Proof.
  induction reg as [|x r IH]; intros Hnd Hi Hj N Fi Fj; [destruct Hi|]. inversion Hnd; subst. cbn [tcount fold_right]. change (fold_right (fun i0 n => (has (f i0) t + n)%nat) 0%nat r) with (tcount r f t).
  destruct Hi as [->|Hi], Hj as [->|Hj].
  - congruence.
  - rewrite Fi, has_self. pose proof (tcount_has r f j t Hj Fj). lia.
  - rewrite Fj, has_self. pose proof (tcount_has r f i t Hi Fi). lia.
  - specialize (IH H2 Hi Hj N Fi Fj). lia.
Qed.
Lemma tmpl_tmpl s E i j t : K s E -> i <> j -> tp_tok (ts_tmpl s i) = Some t -> tp_tok (ts_tmpl s j) = Some t -> (2 <= hold_of s E t)%nat.
Proof.
  intros I N A B. pose proof (tmpl_reg _ _ _ _ _ I A) as Ri. pose proof (tmpl_reg _ _ _ _ _ I B) as Rj. unfold hold_of, holders, tmpl_holders.
  pose proof (tcount_two (ts_reg s) (fun i => tp_tok (ts_tmpl s i)) i j t (ti_ndreg _ _ _ I) Ri Rj N A B). lia.
Qed.
Lemma tmpl_ext s E i t : K s E -> tp_tok (ts_tmpl s i) = Some t -> In t E -> (2 <= hold_of s E t)%nat.
Proof.
  intros I A B. pose proof (tmpl_reg _ _ _ _ _ I A) as Ri. unfold hold_of, holders, tmpl_holders. pose proof (tcount_has (ts_reg s) (fun i => tp_tok (ts_tmpl s i)) i t Ri A). pose proof (count_in E t B). lia.
Qed.
Lemma hold_E s E t : In t E -> (0 < hold_of s E t)%nat.
Proof. apply holders_E. Qed.
Lemma hold_T s E i t : K s E -> tp_tok (ts_tmpl s i) = Some t -> (0 < hold_of s E t)%nat.
Proof. intros I H. eapply holders_T; [eapply tmpl_reg; eassumption|exact H]. Qed.

(** *** lf_schedule_value *)
Lemma value_call nd now e tr extra d e' h E : K (e_tok e) E -> In tr (ts_reg (e_tok e)) ->
  sched_value nd now e tr extra d (Z.of_nat (length d)) = Ok (e', h) ->
  exists k t, top_step (e_tok e) (OValue tr d) = Ok k /\ K k (ext_step (e_tok e) E (OValue tr d)) /\ contents k t = Some d /\ usable k t /\
    hold_of k (ext_step (e_tok e) E (OValue tr d)) t = 1%nat /\ ts_reg k = ts_reg (e_tok e) /\ (forall j, ts_tmpl k j = ts_tmpl (e_tok e) j) /\
    sched nd now (with_tok e k) (Some tr) extra (Some t) = Ok (e', h).
Proof.
  intros I Hi H. unfold sched_value in H. destruct (Z.ltb_spec (Z.of_nat (length d)) 0) as [L|_]; [lia|].
  destruct (step_ok (e_tok e) E (OValue tr d) I Hi) as (k & A & B). pose proof A as A0. cbn [top_step] in A.
  pose proof (alloc_tinv (e_tok e) _ E d I) as AT. assert (R : reusable (fst (alloc_pay (e_tok e) d)) tr = reusable (e_tok e) tr) by reflexivity.
  assert (Ra : hold_of (fst (alloc_pay (e_tok e) d)) E = hold_of (e_tok e) E) by reflexivity.
  assert (Pa : ts_pay (fst (alloc_pay (e_tok e) d)) (snd (alloc_pay (e_tok e) d)) = Some d) by (cbn; apply upd_eq).
  assert (Na : next_token (fst (alloc_pay (e_tok e) d)) = next_token (e_tok e)) by reflexivity. assert (Ma : ts_tmpl (fst (alloc_pay (e_tok e) d)) = ts_tmpl (e_tok e)) by reflexivity. assert (Ga : ts_reg (fst (alloc_pay (e_tok e) d)) = ts_reg (e_tok e)) by reflexivity.
  destruct (alloc_pay (e_tok e) d) as [s1 p]. cbn [fst snd] in *. destruct AT as (I1 & Hg).
  destruct (init_value_ok s1 _ E tr p _ I1 Hg) as (s2 & t & B1 & B2 & B3 & B4 & B5 & B6). rewrite B1 in A, H. cbn [bind fst snd] in A, H. injection A as <-.
  exists s2, t. split; [exact A0|]. split; [exact B|]. split; [rewrite (payload_contents _ _ _ B2), B3; exact Pa|].
  assert (Hc : copies_of s2 = copies_of (e_tok e)) by (destruct (reusable s1 tr); [destruct B6 as (_ & B6)|destruct B6 as (_ & B6 & _)]; exact (copies_of_chain _ _ _ B6)).
  assert (St : same_tmpl (e_tok e) s2) by (split; [congruence|split; [intros i; rewrite B5, Ma; reflexivity|exact Hc]]).
  assert (H1 : hold_of s2 (ext_step (e_tok e) E (OValue tr d)) t = 1%nat).
  { rewrite (hold_same _ _ _ _ St). cbn [ext_step]. rewrite R in B6. destruct (reusable (e_tok e) tr) eqn:Er.
    - destruct B6 as (B6 & _). rewrite Ma in B6. pose proof (reusable_spec (e_tok e) _ E tr I) as Rs. rewrite B6, Er in Rs. destruct Rs as (k & _ & _ & Q & Q2 & _). symmetry in Q. apply Z.eqb_eq in Q. unfold hold_of. lia.
    - destruct B6 as (-> & _ & B6 & _). rewrite Na in *. unfold hold_of, holders in *. rewrite count_occ_cons_eq by reflexivity. change (tmpl_holders s1) with (tmpl_holders (e_tok e)) in B6 || idtac.
      assert (Q : tmpl_holders s1 (next_token (e_tok e)) = tmpl_holders (e_tok e) (next_token (e_tok e))) by (unfold tmpl_holders; rewrite Ga, Ma; reflexivity). lia. }
  split; [eapply held_usable; [apply B|]; unfold hold_of in H1; lia|]. split; [exact H1|]. split; [congruence|]. split; [intros j; rewrite B5, Ma; reflexivity|exact H].
Qed.

(** *** The invariant *)
Definition vinv (s : rt) (E : list nat) : Prop :=
  sound s /\ timers_logical (r_env s) /\ K (e_tok (r_env s)) E /\ held_by E (e_q (r_env s)) /\ forall v, In v (e_q (r_env s)) -> token_known (e_tok (r_env s)) v.
Definition stays (o : vop) (s s' : rt) (v : event) (tr : nat) : Prop :=
  match o with VTag _ => ev_tag v <> e_cur (r_env s') | _ => tg_policy (e_tr (r_env s) tr) <> PReplace end.
Definition vpost (o : vop) (s s' : rt) : Prop :=
  (exists E', vinv s' E') /\ (forall i, tg_policy (e_tr (r_env s') i) = tg_policy (e_tr (r_env s) i)) /\
  (forall v d, In v (e_q (r_env s)) -> In v (e_q (r_env s')) -> carries s v d -> carries s' v d) /\
  (forall v tr, In v (e_q (r_env s)) -> ev_trig v = Some tr -> stays o s s' v tr -> In v (e_q (r_env s'))) /\
  (forall tr d, ~ touches o tr -> value_of s tr = Some d -> value_of s' tr = Some d) /\
  match o with VTag _ => tag_lt (e_cur (r_env s)) (e_cur (r_env s')) | _ => e_cur (r_env s') = e_cur (r_env s) end.

Lemma value_inv s tr d : value_of s tr = Some d -> exists u, tp_tok (ts_tmpl (e_tok (r_env s)) tr) = Some u /\ contents (e_tok (r_env s)) u = Some d.
Proof. unfold value_of. destruct (tp_tok _) as [u|]; [|discriminate]. eauto. Qed.
Lemma value_intro s tr u d : tp_tok (ts_tmpl (e_tok (r_env s)) tr) = Some u -> contents (e_tok (r_env s)) u = Some d -> value_of s tr = Some d.
Proof. unfold value_of. intros ->. auto. Qed.
Lemma queue_token_in q v u : In v q -> ev_tok v = Some u -> In u (queue_tokens q).
Proof. intros H Ht. apply in_flat_map. exists v. rewrite Ht. split; [exact H|left; reflexivity]. Qed.
Lemma held_tokens E q u : held_by E q -> In u (queue_tokens q) -> In u E.
Proof. intros (L & P) H. apply (Permutation_in u (Permutation_sym P)), in_or_app. left. exact H. Qed.

(** The state just before the schedule call proper. *)
Definition near (s : rt) (k : tst) (E : list nat) (same : nat -> Prop) : Prop :=
  K k E /\ held_by E (e_q (r_env s)) /\ ts_reg k = ts_reg (e_tok (r_env s)) /\ (forall j, ts_tmpl k j = ts_tmpl (e_tok (r_env s)) j) /\
  (forall u d, contents (e_tok (r_env s)) u = Some d -> In u (queue_tokens (e_q (r_env s))) -> contents k u = Some d) /\
  (forall i u d, same i -> tp_tok (ts_tmpl (e_tok (r_env s)) i) = Some u -> contents (e_tok (r_env s)) u = Some d -> contents k u = Some d).
Lemma near_refl s E : K (e_tok (r_env s)) E -> held_by E (e_q (r_env s)) -> near s (e_tok (r_env s)) E (fun _ => True).
Proof. intros I H. unfold near. split; [exact I|]. split; [exact H|]. split; [reflexivity|]. split; [reflexivity|]. split; auto. Qed.
Lemma near_value s E tr d k : K (e_tok (r_env s)) E -> held_by E (e_q (r_env s)) -> In tr (ts_reg (e_tok (r_env s))) -> top_step (e_tok (r_env s)) (OValue tr d) = Ok k ->
  near s k (ext_step (e_tok (r_env s)) E (OValue tr d)) (fun i => i <> tr).
Proof.
  intros I Hq Hi H. destruct (step_ok _ E (OValue tr d) I Hi) as (k' & A & B). rewrite H in A. injection A as <-. destruct (step_tmpl _ _ _ H) as (_ & T).
  assert (R : ts_reg k = ts_reg (e_tok (r_env s))).
  { pose proof H as H0. cbn [top_step] in H0. destruct (alloc_pay (e_tok (r_env s)) d) as [s1 p] eqn:Ea. bind_inv H0. destruct x as [s2 n]. injection H0 as <-. unfold alloc_pay in Ea. injection Ea as <- _. apply init_value_tmpl in E0. exact (proj1 E0). }
  assert (Hsub : forall u, In u E -> In u (ext_step (e_tok (r_env s)) E (OValue tr d))) by (intros u Hu; cbn; destruct (reusable _ _); [exact Hu|right; exact Hu]).
  unfold near. split; [exact B|]. split; [cbn [ext_step]; destruct (reusable _ _); [exact Hq|exact (held_keep E _ (Some _) Hq)]|]. split; [exact R|]. split; [intros j; apply T; intros []|]. split.
  - intros u d0 Hc Hu. pose proof (held_tokens _ _ _ Hq Hu) as Hin. eapply (keep _ E (OValue tr d) k u d0); try eassumption; [apply hold_E, Hsub, Hin|].
    intros i _ Hit. pose proof (tmpl_ext _ E i u I Hit Hin). unfold hold_of in *. lia.
  - intros i u d0 Hne Hit Hc. eapply (keep _ E (OValue tr d) k u d0); try eassumption.
    + eapply hold_T; [exact B|]. rewrite T by (intros []). exact Hit.
    + intros j Hj Hjt. cbn in Hj. subst j. pose proof (tmpl_tmpl _ E i tr u I Hne Hit Hjt). unfold hold_of in *. lia.
Qed.

Lemma call_post s k E same e' tr tok o :
  near s k E same -> moved k E tok (e_tok e') (e_q e') -> (forall v, In v (e_q (r_env s)) -> token_known (e_tok (r_env s)) v) ->
  (forall v, In v (e_q e') -> In v (e_q (r_env s)) \/ (ev_trig v = Some tr /\ ev_tok v = tok)) -> (forall t, tok = Some t -> In tr (ts_reg (e_tok (r_env s)))) ->
  (forall v u, In v (e_q (r_env s)) -> ev_trig v = Some u -> tg_policy (e_tr (r_env s) u) <> PReplace -> In v (e_q e')) ->
  sound (rt_env s e') -> timers_logical e' -> (forall i, tg_policy (e_tr e' i) = tg_policy (e_tr (r_env s) i)) -> e_cur e' = e_cur (r_env s) ->
  (forall i, ~ touches o i -> same i) -> (forall now, o <> VTag now) -> vpost o s (rt_env s e').
Proof.
  intros (N1 & N2 & N3 & N4 & N5 & N6) (E' & M1 & M2 & (M3 & M4 & M5) & M6 & M7) Hk Hnew Htok Hstay S Htl Hpol Hcur Hsame Hnt.
  unfold vpost. cbn [rt_env r_env]. split.
  { exists E'. split; [exact S|]. split; [exact Htl|]. split; [exact M1|]. split; [exact M2|]. cbn [rt_env r_env]. intros v Hv t Ht. rewrite M3, N3. destruct (Hnew v Hv) as [Q|(Q1 & Q2)]; [exact (Hk v Q t Ht)|].
    exists tr. split; [exact Q1|]. apply (Htok t). congruence. }
  split; [exact Hpol|]. split.
  { intros v d Hv Hv' (u & Hu & Hc). exists u. split; [exact Hu|]. cbn [rt_env r_env]. apply M7; [apply N5; [exact Hc|eapply queue_token_in; eassumption]|]. apply hold_E. eapply held_in; eassumption. }
  split. { intros v u Hv Hu Hst. destruct o; cbn [stays] in Hst; try (eapply Hstay; eassumption). destruct (Hnt now eq_refl). }
  split.
  { intros i d Hni Hv. apply value_inv in Hv. destruct Hv as (u & Hu & Hc). assert (Hu' : tp_tok (ts_tmpl (e_tok e') i) = Some u) by (rewrite M4, N4; exact Hu).
    eapply value_intro; cbn [rt_env r_env]; [exact Hu'|]. apply M7; [eapply N6; [exact (Hsame i Hni)|exact Hu|exact Hc]|]. eapply hold_T; [exact M1|exact Hu']. }
  destruct o; try exact Hcur. destruct (Hnt now eq_refl).
Qed.

Lemma sched_queue nd now e tr extra tok e' h : sched nd now e (Some tr) extra tok = Ok (e', h) ->
  (forall v, In v (e_q e') -> In v (e_q e) \/ (ev_trig v = Some tr /\ ev_tok v = tok)) /\
  (forall v u, In v (e_q e) -> ev_trig v = Some u -> tg_policy (e_tr e u) <> PReplace -> In v (e_q e')).
Proof.
  intros H. apply sched_call in H. destruct H as (_ & [A|v A B C D|t A|b A]); rewrite A.
  - auto.
  - destruct (set_ev_tok_spec _ _ _ tok _ B) as (a & c & E1 & E2). rewrite E2. apply find_ev_some in B. destruct B as (_ & B). unfold key in B. injection B as B1 B2. rewrite E1. split.
    + intros w Hw. rewrite in_app_iff in *. cbn [In] in *. destruct Hw as [Hw|[<-|Hw]]; cbn; auto.
    + intros w u Hw Hu Hp. rewrite in_app_iff in *. cbn [In] in *. destruct Hw as [Hw|[<-|Hw]]; auto. rewrite B1 in Hu. injection Hu as <-. contradiction.
  - split; [intros w [<-|Hw]; auto|]. intros; right; assumption.
  - split; [intros w [<-|Hw]; auto|]. intros; right; assumption.
Qed.
Lemma at_queue e tr t tok e' h : sched_at e tr t tok = Ok (e', h) ->
  (forall v, In v (e_q e') -> In v (e_q e) \/ (ev_trig v = Some tr /\ ev_tok v = tok)) /\
  (forall v u, In v (e_q e) -> ev_trig v = Some u -> tg_policy (e_tr e u) <> PReplace -> In v (e_q e')).
Proof.
  intros H. apply at_call in H. destruct H as (_ & _ & [A|v A B D|b A]); rewrite A.
  - auto.
  - destruct (set_ev_tok_spec _ _ _ tok _ B) as (a & c & E1 & E2). rewrite E2. apply find_ev_some in B. destruct B as (_ & B). unfold key in B. injection B as B1 B2. rewrite E1. split.
    + intros w Hw. rewrite in_app_iff in *. cbn [In] in *. destruct Hw as [Hw|[<-|Hw]]; cbn; auto.
    + intros w u Hw Hu Hp. rewrite in_app_iff in *. cbn [In] in *. destruct Hw as [Hw|[<-|Hw]]; auto. rewrite B1 in Hu. injection Hu as <-. contradiction.
  - split; [intros w [<-|Hw]; auto|]. intros; right; assumption.
Qed.
Lemma counts_bounded s E : K s E -> counts_ok s -> bounded s E.
Proof.
  intros I H u. destruct (Nat.eq_dec (hold_of s E u) 0) as [Z|Z]; [rewrite Z; reflexivity|].
  assert (U : usable s u) by (eapply held_usable; [apply I|]; unfold hold_of in Z; lia). destruct U as (U1 & U2). destruct (ts_tok s u) as [k|] eqn:Ek; [|congruence].
  pose proof (c_ref _ _ (ti_core _ _ _ I) _ _ Ek U2) as R. pose proof (H u k Ek). unfold hold_of. lia.
Qed.
Lemma passed_ok s E tr tok : K (e_tok (r_env s)) E -> counts_ok (e_tok (r_env s)) -> passed s tr tok ->
  tok_ok (e_tok (r_env s)) (copies_of (e_tok (r_env s))) E tok /\ forall t, tok = Some t -> In tr (ts_reg (e_tok (r_env s))).
Proof.
  intros I Hc Hp. pose proof (counts_bounded _ _ I Hc) as B. destruct tok as [t|]; [|split; [exact Logic.I|discriminate]]. destruct Hp as (U & R). split; [|intros; exact R]. split; [exact U|]. apply B.
Qed.

Lemma sched_post nd now s tr extra tok e' h k E same o : sound s -> timers_logical (r_env s) -> (forall v, In v (e_q (r_env s)) -> token_known (e_tok (r_env s)) v) ->
  near s k E same -> tok_ok k (copies_of k) E tok -> (forall t, tok = Some t -> In tr (ts_reg (e_tok (r_env s)))) ->
  sched_ok nd now (r_env s) tr extra -> sched nd now (with_tok (r_env s) k) (Some tr) extra tok = Ok (e', h) ->
  (forall i, ~ touches o i -> same i) -> (forall now, o <> VTag now) -> vpost o s (rt_env s e').
Proof.
  intros S Htl Hk N Ht Hreg Hok H Hsame Hnt. destruct (sched_queue _ _ _ _ _ _ _ _ H) as (Q1 & Q2).
  pose proof (proj1 (sched_call _ _ _ _ _ _ _ _ H)) as (C1 & _).
  eapply call_post; try eassumption.
  - destruct N as (N1 & N2 & _). apply (sched_moved nd now (with_tok (r_env s) k) tr extra tok e' h E N1 N2 Ht); [|exact H]. exact (proj1 (proj2 S)).
  - exact (sched_sound nd now (rt_env s (with_tok (r_env s) k)) tr extra tok e' h S Hok H).
  - exact (timers_logical_ext _ _ (sched_static _ _ _ _ _ _ _ _ H) Htl).
  - exact (sched_policy _ _ _ _ _ _ _ _ H).
Qed.

Lemma vpost_refl o s E : vinv s E -> (forall now, o <> VTag now) -> vpost o s s.
Proof.
  intros I Hn. unfold vpost. split; [exists E; exact I|]. split; [auto|]. split; [auto|]. split; [auto|]. split; [auto|]. destruct o; auto. destruct (Hn now eq_refl).
Qed.
Lemma with_tok_same e : with_tok e (e_tok e) = e.
Proof. destruct e; reflexivity. Qed.

Lemma value_post nd now s tr extra d s' E o : vinv s E -> counts_ok (e_tok (r_env s)) -> sched_ok nd now (r_env s) tr extra -> In tr (ts_reg (e_tok (r_env s))) ->
  on_env s (sched_value nd now (r_env s) tr extra d (Z.of_nat (length d))) = Ok s' -> (forall i, ~ touches o i -> i <> tr) -> (forall now, o <> VTag now) -> vpost o s s'.
Proof.
  intros (S & Htl & I & Hq & Hk) Hc Hok Hi H Hs Hn. unfold on_env in H. bind_inv H. injection H as <-. destruct x as [e' h]. cbn [fst].
  destruct (value_call _ _ _ _ _ _ _ _ E I Hi E0) as (k & t & A & B & C & D & F & G1 & G2 & G3).
  eapply (sched_post nd now s tr extra (Some t) e' h k (ext_step (e_tok (r_env s)) E (OValue tr d)) (fun i => i <> tr)); try eassumption.
  - apply (near_value s E tr d k); assumption.
  - split; [exact D|]. unfold hold_of in F. rewrite F. reflexivity.
  - intros _ _. exact Hi.
Qed.

(** *** Token operations of reactions *)
Lemma tok_post s E o k nd : vinv s E -> vop_ok nd s (VTok o) -> top_step (e_tok (r_env s)) o = Ok k -> vpost (VTok o) s (rt_env s (with_tok (r_env s) k)).
Proof.
  intros (S & Htl & I & Hq & Hk) (Hc & Hv) H. pose proof (counts_bounded _ _ I Hc) as Hb.
  assert (Hop : op_ok (e_tok (r_env s)) (copies_of (e_tok (r_env s))) E o).
  { destruct o; cbn in Hv |- *; try exact Hv; try contradiction. destruct Hv as (A & B). split; [exact A|]. split; [exact B|]. apply Hb. }
  destruct (step_ok _ E o I Hop) as (k' & A & B). rewrite H in A. injection A as <-. destruct (step_tmpl _ _ _ H) as (T1 & T2). set (E' := ext_step (e_tok (r_env s)) E o) in *.
  assert (Hsub : forall u, In u E -> In u E').
  { intros u Hu. subst E'. destruct o; cbn in Hv |- *; try exact Hu; try contradiction. destruct (reusable _ _); [exact Hu|]. destruct (tp_tok _); [right|]; exact Hu. }
  assert (Hq' : held_by E' (e_q (r_env s))).
  { subst E'. destruct o; cbn in Hv |- *; try exact Hq; try contradiction. destruct (reusable _ _); [exact Hq|]. exact (held_keep E _ (tp_tok _) Hq). }
  assert (Hr : forall i, reuses o i -> touches (VTok o) i) by (clear -Hv; intros i; destruct o; cbn in Hv |- *; tauto).
  assert (Hw : forall i, writes o i -> touches (VTok o) i) by (clear -Hv; intros i; destruct o; cbn in Hv |- *; tauto).
  unfold vpost. cbn [rt_env r_env with_tok e_tok e_q e_tr e_cur]. split.
  { exists E'. split; [exact S|]. split; [exact Htl|]. split; [exact B|]. split; [exact Hq'|]. cbn [rt_env r_env with_tok e_tok e_q]. intros v Hin t Ht. destruct (Hk v Hin t Ht) as (tr & Q1 & Q2). exists tr. split; [exact Q1|apply T1, Q2]. }
  split; [reflexivity|]. split.
  { intros v d Hin _ (u & Hu & Hcu). exists u. split; [exact Hu|]. cbn [rt_env r_env with_tok e_tok]. pose proof (held_in _ _ _ _ Hq Hin Hu) as HE. eapply (keep _ E o k u d); try eassumption; [apply hold_E, Hsub, HE|].
    intros i _ Hit. pose proof (tmpl_ext _ E i u I Hit HE). unfold hold_of in *. lia. }
  split; [auto|]. split; [|reflexivity].
  intros tr d Hnt Hval. apply value_inv in Hval. destruct Hval as (u & Hu & Hcu). assert (Hu' : tp_tok (ts_tmpl k tr) = Some u) by (rewrite T2; [exact Hu|]; intros Q; apply Hnt, Hw, Q).
  eapply value_intro; cbn [rt_env r_env with_tok e_tok]; [exact Hu'|]. eapply (keep _ E o k u d); try eassumption; [eapply hold_T; [exact B|exact Hu']|].
  intros i Hi Hit. destruct (Nat.eq_dec tr i) as [<-|N]; [destruct Hnt; apply Hr, Hi|]. pose proof (tmpl_tmpl _ E tr i u I N Hu Hit). unfold hold_of in *. lia.
Qed.

(** *** Entering a tag *)
Lemma enter_tok P kp nd now s s1 evs down : enter P kp nd now s = Ok (Some (s1, evs, down)) ->
  exists s0 t, e_cur (r_env s0) = t /\ evs = filter (at_tag t) (e_q (r_env s)) /\ e_q (r_env s0) = filter (fun v => negb (at_tag t v)) (e_q (r_env s)) /\
    e_tr (r_env s0) = e_tr (r_env s) /\ pop_all P nd now s0 evs = Ok s1 /\ e_tok (r_env s0) = e_tok (r_env s).
Proof.
  intros H. unfold enter in H. cbv zeta in H.
  set (e1 := match min_tag (e_q (r_env s)) with Some _ => r_env s | None => if kp then r_env s else set_stop (r_env s) (bump (e_cur (r_env s))) end) in *.
  assert (Q : e_q e1 = e_q (r_env s) /\ e_tr e1 = e_tr (r_env s) /\ e_tok e1 = e_tok (r_env s)).
  { subst e1. destruct (min_tag _); [auto|]. destruct kp; [auto|]. unfold set_stop. destruct (_ <? 0); auto. }
  destruct (advance nd e1 _) as [e2|] eqn:Ea; [|discriminate]. bind_inv H. injection H as <- <- _. destruct x as [s2 evs]. cbn [fst snd].
  assert (Q2 : e_q e2 = e_q e1 /\ e_tr e2 = e_tr e1 /\ e_tok e2 = e_tok e1). { unfold advance in Ea. destruct (_ && _); [discriminate|]. destruct (_ <? 0); [|discriminate]. injection Ea as <-. auto. }
  unfold pop_events in E. cbv zeta in E. rewrite clear_env in E. cbn [rt_env r_env] in E. bind_inv E. injection E as <- <-.
  destruct Q as (Q & Q' & Q''), Q2 as (Q2 & Q2' & Q2''). rewrite Q2, Q in *.
  eexists _, (e_cur e2). split; [|split; [reflexivity|split; [|split; [|split; [exact E0|]]]]]; cbn [rt_env r_env with_q e_cur e_q e_tr e_tok]; congruence.
Qed.

Lemma filter_tokens f q : Permutation (queue_tokens (filter f q ++ filter (fun v => negb (f v)) q)) (queue_tokens q).
Proof.
  unfold queue_tokens. apply Permutation_flat_map. induction q as [|v q IH]; [constructor|]. cbn [filter]. destruct (f v); cbn [negb app]; [apply perm_skip, IH|]. rewrite <- Permutation_middle. apply perm_skip, IH.
Qed.
Lemma filter_pair (f : event -> bool) q : forall a v b w, filter f q = a ++ v :: b -> In w b -> exists a' b' c', q = a' ++ v :: b' ++ w :: c'.
Proof.
  induction q as [|x q IH]; intros a v b w H Hw; cbn in H; [destruct a; discriminate|]. destruct (f x).
  - destruct a as [|y a]; cbn in H; injection H as -> H.
    + rewrite <- H in Hw. apply filter_In in Hw. destruct Hw as (Hw & _). apply in_split in Hw. destruct Hw as (l1 & l2 & ->). exists [], l1, l2. reflexivity.
    + destruct (IH a v b w H Hw) as (a' & b' & c' & ->). exists (y :: a'), b', c'. reflexivity.
  - destruct (IH a v b w H Hw) as (a' & b' & c' & ->). exists (x :: a'), b', c'. reflexivity.
Qed.

Lemma tag_post P kp nd now s s' E : vinv s E -> vop_ok nd s (VTag now) -> next_tag P kp nd now s = Ok s' ->
  vpost (VTag now) s s' /\
  forall v tr d, In v (e_q (r_env s)) -> ev_trig v = Some tr -> ev_tag v = e_cur (r_env s') -> carries s v d -> alone s tr (ev_tag v) -> value_of s' tr = Some d.
Proof.
  intros (S & Htl & I & Hq & Hk) (Hc & Hlt & Hrg & Hbin) H. pose proof (counts_bounded _ _ I Hc) as Hb.
  unfold next_tag in H. bind_inv H. rename x into k. bind_inv H. destruct x as [[[s1 evs] down]|]; [|discriminate]. injection H as <-.
  assert (Hs : top_step (e_tok (r_env s)) OEndTag = Ok k) by exact E0.
  destruct (step_ok _ E OEndTag I Hbin) as (k' & A & B). rewrite Hs in A. injection A as <-. cbn [ext_step] in B. destruct (end_tmpl _ _ _ E0) as (R & T).
  assert (Hle : forall u, (hold_of k E u <= hold_of (e_tok (r_env s)) E u)%nat).
  { intros u. destruct (end_tag_ok _ (ts_fresh (e_tok (r_env s))) _ E I (copies_len _ _ _ I) Hbin) as (k2 & Q1 & Q2 & _). rewrite E0 in Q1. injection Q1 as <-. unfold hold_of, holders, tmpl_holders. rewrite (copies_of_chain _ _ _ Q2), R, T. cbn [count_occ]. lia. }
  assert (Hkeep : forall u d, contents (e_tok (r_env s)) u = Some d -> (0 < hold_of k E u)%nat -> contents k u = Some d).
  { intros u d Hcu Hu. exact (keep _ E OEndTag k u d I Hbin Hs Hcu Hu (fun i F => match F with end)). }
  set (sk := rt_env s (with_tok (r_env s) k)) in *. assert (Sk : sound sk) by exact S. assert (Tk : timers_logical (r_env sk)) by exact Htl. assert (Rk : in_range sk) by exact Hrg.
  destruct (enter_spec P kp nd now sk _ Sk Hlt Rk Tk E1) as (s1' & evs' & down' & Q & S1 & A1 & A2 & A3 & A4 & A5 & A6 & A7 & A8). injection Q as <- <- <-. cbv zeta in *.
  destruct (enter_tok _ _ _ _ _ _ _ _ E1) as (s0 & t & F1 & F2 & F3 & F4 & F5 & F6).
  change (e_q (r_env sk)) with (e_q (r_env s)) in *. change (e_tr (r_env sk)) with (e_tr (r_env s)) in *. change (e_tok (r_env sk)) with k in *. change (e_cur (r_env sk)) with (e_cur (r_env s)) in *.
  assert (Hnv : evs <> [] -> NEVER < ttime (e_cur (r_env s0)) < FOREVER).
  { intros Hne. rewrite F1. destruct evs as [|v l]; [congruence|]. assert (Hin : In v (v :: l)) by (left; reflexivity). rewrite F2 in Hin. apply filter_In in Hin. destruct Hin as (Hin & Hat). apply at_tag_spec in Hat. rewrite <- Hat. apply (proj1 Hrg v Hin). }
  assert (Tl0 : timers_logical (r_env s0)) by (intros u; rewrite F4; apply Htl).
  pose proof (pop_all_grown _ _ _ _ _ _ F5 Tl0 Hnv) as ((G1 & _) & _).
  assert (Ht : t = e_cur (r_env s1)) by congruence.
  assert (Hh0 : held_by E (evs ++ e_q (r_env s0))).
  { destruct Hq as (L & P0). exists L. rewrite P0. apply Permutation_app_tail. rewrite F2, F3. symmetry. apply filter_tokens. }
  assert (Hsplit : forall v, In v evs \/ In v (e_q (r_env s0)) -> In v (e_q (r_env s))) by (intros v; rewrite F2, F3, !filter_In; tauto).
  assert (Hk0 : forall v, In v evs \/ In v (e_q (r_env s0)) -> token_known (e_tok (r_env s0)) v) by (intros v Hv u Hu; rewrite F6, R; exact (Hk v (Hsplit v Hv) u Hu)).
  assert (Hb0 : bounded (e_tok (r_env s0)) E) by (rewrite F6; intros u; specialize (Hle u); specialize (Hb u); lia).
  destruct (pop_all_v P nd now evs s0 s1 E F5 Tl0 Hnv) as (E' & (B1 & B2 & B3 & B4 & B5 & B6 & B7 & B8) & B9); [rewrite F6; exact B|exact Hb0|exact Hh0|intros v Hv; apply Hk0; left; exact Hv|]. cbv zeta in *. rewrite F6 in *.
  assert (Hall : forall u d, contents (e_tok (r_env s)) u = Some d -> (0 < hold_of (e_tok (r_env s1)) E' u)%nat -> contents (e_tok (r_env s1)) u = Some d).
  { intros u d Hcu Hu. apply B4; [|exact Hu]. apply Hkeep; [exact Hcu|]. specialize (B3 u). lia. }
  split.
  - unfold vpost. split.
    { exists E'. split; [exact S1|]. split; [exact (timers_logical_ext _ _ A8 Htl)|]. split; [exact B1|]. split; [exact B9|]. intros v Hv u Hu. rewrite B2. destruct (B5 v Hv) as [Q|Q]; [|congruence]. exact (Hk0 v (or_intror Q) u Hu). }
    split; [intros i; rewrite B6, F4; reflexivity|]. split.
    { intros v d _ Hv (u & Hu & Hcu). exists u. split; [exact Hu|]. apply Hall; [exact Hcu|]. apply hold_E. eapply held_in; eassumption. }
    split; [intros v tr Hv _ Hne; apply A6; assumption|]. split; [intros tr d Hnt; destruct Hnt; exact Logic.I|exact A1].
  - intros v tr d Hv Htr Htag (u & Hu & Hcu) Hal. assert (Hin : In v evs) by (apply A5; split; assumption). apply in_split in Hin. destruct Hin as (a & b & Hab).
    assert (Hlast : forall w, In w b -> ev_trig w <> Some tr).
    { intros w Hw Hwt. assert (Hwe : In w evs) by (rewrite Hab, in_app_iff; right; right; exact Hw). apply A5 in Hwe. destruct Hwe as (_ & Hwe). rewrite Hab in F2. destruct (filter_pair _ _ a v b w (eq_sym F2) Hw) as (a' & b' & c' & Q).
      eapply (Hal a' v b' w c'); [exact Q|unfold key; congruence|unfold key; congruence]. }
    pose proof (B8 a v b tr Hab Htr Hlast) as Hp. rewrite Hu in Hp. eapply value_intro; [exact Hp|]. apply Hall; [exact Hcu|]. eapply hold_T; [exact B1|exact Hp].
Qed.

(** *** Every operation *)
Lemma at_sound s tr t tok e' h : sound s -> tag_ok t -> tmicro t < UINT_MAX -> sched_at (r_env s) tr t tok = Ok (e', h) -> sound (rt_env s e').
Proof.
  intros S Ht Hm H. pose proof (at_call _ _ _ _ _ _ H) as (Hc & _ & Hcall). eapply sound_env; [exact S|exact Hc|]. destruct S as (A & _ & _ & _ & Hst). destruct Hc as (C1 & _). intros v Hv. rewrite C1.
  destruct Hcall as [Q|w Q Hf|t2 Q Hs Ht2 Hcur]; rewrite Q in Hv.
  - apply A, Hv.
  - destruct (revalued_tags _ _ _ _ _ _ (replace_revalued _ _ _ _ _ _ Q Hf) ltac:(rewrite Q; exact Hv)) as (x & Hx & <-). apply A, Hx.
  - destruct Hv as [<-|Hv]; [|apply A, Hv]. cbn [ev_tag]. specialize (Hcur Hst). destruct Ht2 as [(-> & _)|(-> & _)]; [exact Hcur|]. eapply tag_lt_trans; [exact Hcur|]. apply bump_after; assumption.
Qed.

Lemma vstep_post P kp nd s o s' E : vinv s E -> vop_ok nd s o -> vstep P kp nd s o = Ok s' -> vpost o s s'.
Proof.
  intros V Hok H. pose proof V as (S & Htl & I & Hq & Hk). destruct o as [a|now tr extra d|now tr extra v|now tr extra src|tr t tok|o| |now]; cbn [vstep] in H.
  - destruct Hok as (Hc & Ha & Hp). destruct a as [now tr extra tok|f|]; cbn [act] in H.
    + bind_inv H. injection H as <-. destruct x as [e' h]. cbn [fst]. destruct (passed_ok s E tr tok I Hc Hp) as (P1 & P2).
      eapply (sched_post nd now s tr extra tok e' h (e_tok (r_env s)) E (fun _ => True)); try eassumption; try (intros; exact Logic.I); try discriminate; first [apply near_refl; assumption|rewrite with_tok_same; exact E0].
    + unfold mark in H. destruct (_ <? INT_MAX); [|discriminate]. injection H as <-. exact (vpost_refl (VAct (ASet f)) s E V ltac:(intros; discriminate)).
    + injection H as <-. destruct (act_sound P nd s AStop _ S Ha eq_refl) as (S1 & _).
      assert (Q : e_q (request_stop (r_env s)) = e_q (r_env s) /\ e_tok (request_stop (r_env s)) = e_tok (r_env s) /\ e_tr (request_stop (r_env s)) = e_tr (r_env s) /\ e_cur (request_stop (r_env s)) = e_cur (r_env s)) by (unfold request_stop, set_stop; destruct (_ <? 0); auto).
      destruct Q as (Q1 & Q2 & Q3 & Q4). unfold vpost, carries, value_of, stays. cbn [rt_env r_env]. rewrite Q1, Q2, Q3, Q4. split; [exists E; unfold vinv; cbn [rt_env r_env]; rewrite Q1, Q2; unfold timers_logical; rewrite Q3; auto|auto].
  - destruct Hok as (Hc & Ho & Hi). eapply value_post; try eassumption; [cbn; congruence|discriminate].
  - destruct Hok as (Hc & Ho & Hi). unfold sched_int in H. destruct (negb _); [injection H as <-; exact (vpost_refl (VInt now tr extra v) s E V ltac:(intros; discriminate))|].
    eapply (value_post nd now s tr extra [v]); try eassumption; [cbn; congruence|discriminate].
  - destruct Hok as (Hc & Ho & Hi). unfold sched_copy in H. destruct src as [d|].
    + destruct (_ <=? 0); [injection H as <-; exact (vpost_refl (VCopy now tr extra (Some d)) s E V ltac:(intros; discriminate))|]. eapply value_post; try eassumption; [cbn; congruence|discriminate].
    + unfold on_env in H. bind_inv H. injection H as <-. destruct x as [e' h]. cbn [fst].
      eapply (sched_post nd now s tr extra None e' h (e_tok (r_env s)) E (fun _ => True)); try eassumption; try (intros; exact Logic.I); try discriminate; first [apply near_refl; assumption|rewrite with_tok_same; exact E0].
  - destruct Hok as (Hc & Hp & Ht & Hm). unfold on_env in H. bind_inv H. injection H as <-. destruct x as [e' h]. cbn [fst]. destruct (passed_ok s E tr tok I Hc Hp) as (P1 & P2). destruct (at_queue _ _ _ _ _ _ E0) as (Q1 & Q2).
    destruct (at_call _ _ _ _ _ _ E0) as ((C1 & _) & C2 & _).
    eapply (call_post s (e_tok (r_env s)) E (fun _ => True) e' tr tok); try eassumption; try (intros; exact Logic.I); try discriminate.
    + apply near_refl; assumption.
    + eapply at_moved; eassumption.
    + eapply at_sound; eassumption.
    + intros u. rewrite C2. apply Htl.
    + intros i. rewrite C2. reflexivity.
  - bind_inv H. injection H as <-. eapply tok_post; eassumption.
  - injection H as <-. destruct Hok as (_ & Hm). destruct (min_tag _).
    { assert (Q : rt_env s (r_env s) = s) by (destruct s; reflexivity). rewrite Q. exact (vpost_refl VIdle s E V ltac:(intros; discriminate)). }
    destruct kp. { assert (Q : rt_env s (r_env s) = s) by (destruct s; reflexivity). rewrite Q. exact (vpost_refl VIdle s E V ltac:(intros; discriminate)). }
    destruct (sound_stop s S Hm) as (S1 & _). set (e1 := set_stop _ _) in *.
    assert (Q : e_q e1 = e_q (r_env s) /\ e_tok e1 = e_tok (r_env s) /\ e_tr e1 = e_tr (r_env s) /\ e_cur e1 = e_cur (r_env s)) by (subst e1; unfold set_stop; destruct (_ <? 0); auto).
    destruct Q as (Q1 & Q2 & Q3 & Q4). unfold vpost, carries, value_of, stays. cbn [rt_env r_env]. rewrite Q1, Q2, Q3, Q4. split; [exists E; unfold vinv; cbn [rt_env r_env]; rewrite Q1, Q2; unfold timers_logical; rewrite Q3; auto|auto].
  - exact (proj1 (tag_post P kp nd now s s' E V Hok H)).
Qed.

(** *** Runs *)
Lemma start_vinv cfg s : vstart cfg s -> vinv s [].
Proof.
  intros (S & Htl & Hi & Hq). split; [exact S|]. split; [exact Htl|]. split; [rewrite Hi; apply init_tinv|]. split.
  - exists []. assert (Q : queue_tokens (e_q (r_env s)) = []).
    { revert Hq. generalize (e_q (r_env s)). induction l as [|v l IH]; intros Hq; [reflexivity|]. cbn. rewrite (Hq v) by (left; reflexivity). apply IH. intros w Hw. apply Hq. right. exact Hw. }
    rewrite Q. constructor.
  - intros v Hv t Ht. rewrite (Hq v Hv) in Ht. discriminate.
Qed.
Lemma vok_app P kp nd os2 : forall os1 s s1, vok_run P kp nd s (os1 ++ os2) -> vrun P kp nd s os1 = Ok s1 -> vok_run P kp nd s1 os2.
Proof.
  induction os1 as [|o os IH]; intros s s1 H R; cbn in *; [injection R as <-; exact H|]. bind_inv R. destruct H as (_ & H). exact (IH _ _ (H _ eq_refl) R).
Qed.
Lemma vok_pre P kp nd os2 : forall os1 s, vok_run P kp nd s (os1 ++ os2) -> vok_run P kp nd s os1.
Proof. induction os1 as [|o os IH]; intros s H; cbn in *; [exact Logic.I|]. destruct H as (A & B). split; [exact A|]. intros s1 H1. exact (IH _ (B _ H1)). Qed.
Lemma vrun_inv P kp nd : forall os s s1 E, vinv s E -> vok_run P kp nd s os -> vrun P kp nd s os = Ok s1 ->
  (exists E', vinv s1 E') /\ forall i, tg_policy (e_tr (r_env s1) i) = tg_policy (e_tr (r_env s) i).
Proof.
  induction os as [|o os IH]; intros s s1 E V H R; cbn in *; [injection R as <-; eauto|]. bind_inv R. destruct H as (A & B).
  destruct (vstep_post _ _ _ _ _ _ _ V A E0) as ((E' & V') & Hp & _). destruct (IH _ _ _ V' (B _ eq_refl) R) as (Q1 & Q2). split; [exact Q1|]. intros i. rewrite Q2. apply Hp.
Qed.
Lemma value_kept P kp nd tr d : forall os s s1 E, vinv s E -> vok_run P kp nd s os -> vrun P kp nd s os = Ok s1 -> Forall (fun o => ~ touches o tr) os ->
  value_of s tr = Some d -> value_of s1 tr = Some d.
Proof.
  induction os as [|o os IH]; intros s s1 E V H R F Hv; cbn in *; [injection R as <-; exact Hv|]. bind_inv R. destruct H as (A & B).
  destruct (vstep_post _ _ _ _ _ _ _ V A E0) as ((E' & V') & _ & _ & _ & Hk & _). inversion F as [|? ? F1 F2]; subst. eapply IH; try eassumption; [exact (B _ eq_refl)|]. apply Hk; assumption.
Qed.

(** The event of a call that schedules a value carries that value. *)
Lemma value_carried nd now s tr extra d s1 E : vinv s E -> sched_ok nd now (r_env s) tr extra -> In tr (ts_reg (e_tok (r_env s))) ->
  on_env s (sched_value nd now (r_env s) tr extra d (Z.of_nat (length d))) = Ok s1 ->
  (forall v, e_q (r_env s1) = v :: e_q (r_env s) -> ev_trig v = Some tr /\ carries s1 v d) /\
  exists k t h, sched nd now (with_tok (r_env s) k) (Some tr) extra (Some t) = Ok (r_env s1, h).
Proof.
  intros (S & Htl & I & Hq & Hk) Hok Hi H. unfold on_env in H. bind_inv H. injection H as <-. destruct x as [e' h]. cbn [fst rt_env r_env].
  destruct (value_call _ _ _ _ _ _ _ _ E I Hi E0) as (k & t & A & B & C & D & F & G1 & G2 & G3). split; [|exists k, t, h; exact G3].
  intros v Hv. destruct (near_value s E tr d k I Hq Hi A) as (N1 & N2 & _).
  assert (Hmv : moved k (ext_step (e_tok (r_env s)) E (OValue tr d)) (Some t) (e_tok e') (e_q e')).
  { apply (sched_moved nd now (with_tok (r_env s) k) tr extra (Some t) e' h _ N1 N2); [|exact (proj1 (proj2 S))|exact G3]. split; [exact D|]. unfold hold_of in F. cbn [with_tok e_tok] in *. rewrite F. reflexivity. }
  destruct Hmv as (E' & M1 & M2 & _ & _ & M5).
  assert (Hnew : ev_trig v = Some tr /\ ev_tok v = Some t).
  { apply sched_call in G3. destruct G3 as (_ & [Q|w Q|t2 Q|b Q]); cbn [with_tok e_q] in Q; rewrite Hv in Q.
    - apply (f_equal (@length _)) in Q. cbn in Q. lia.
    - apply (f_equal (@length _)) in Q. rewrite set_ev_tok_length in Q. cbn in Q. lia.
    - injection Q as ->. auto.
    - injection Q as ->. auto. }
  destruct Hnew as (T1 & T2). split; [exact T1|]. exists t. split; [exact T2|]. cbn [rt_env r_env]. apply M5; [exact C|]. apply hold_E. eapply (held_in E' (e_q e') v t); [exact M2|rewrite Hv; left; reflexivity|exact T2].
Qed.
Lemma schedules_value P kp nd s o now tr extra d s1 : schedules o now tr extra d -> vop_ok nd s o -> vstep P kp nd s o = Ok s1 ->
  sched_ok nd now (r_env s) tr extra /\ In tr (ts_reg (e_tok (r_env s))) /\
  (s1 = s \/ on_env s (sched_value nd now (r_env s) tr extra d (Z.of_nat (length d))) = Ok s1).
Proof.
  assert (Hs : rt_env s (r_env s) = s) by (destruct s; reflexivity).
  intros [->|[(v & -> & ->)| ->]] (_ & A & B) H; cbn [vstep] in H; (split; [exact A|]); (split; [exact B|]); [right; exact H| |].
  - unfold sched_int in H. destruct (negb _); [|right; exact H]. left. injection H as <-. cbn [fst]. exact Hs.
  - unfold sched_copy in H. destruct (_ <=? 0); [|right; exact H]. left. injection H as <-. cbn [fst]. exact Hs.
Qed.

Lemma tag_dec (a b : tag) : {a = b} + {a <> b}.
Proof. destruct a, b; repeat decide equality. Qed.
Lemma arrives P kp nd tr v d : forall os s s2 E, vinv s E -> vok_run P kp nd s os -> vrun P kp nd s os = Ok s2 ->
  In v (e_q (r_env s)) -> ev_trig v = Some tr -> carries s v d -> tg_policy (e_tr (r_env s) tr) <> PReplace ->
  (forall pre post s', os = pre ++ post -> vrun P kp nd s pre = Ok s' -> alone s' tr (ev_tag v)) ->
  (In v (e_q (r_env s2)) /\ tag_lt (e_cur (r_env s2)) (ev_tag v) /\ carries s2 v d) \/
  exists pre now post sa sb, os = pre ++ VTag now :: post /\ vrun P kp nd s pre = Ok sa /\ vstep P kp nd sa (VTag now) = Ok sb /\
    e_cur (r_env sb) = ev_tag v /\ value_of sb tr = Some d.
Proof.
  induction os as [|o os IH]; intros s s2 E V H R Hv Ht Hc Hp Hal.
  { cbn in R. injection R as <-. left. split; [exact Hv|]. split; [apply (proj1 (proj1 V)), Hv|exact Hc]. }
  cbn in R. bind_inv R. rename x into s1. destruct H as (A & B). destruct (vstep_post _ _ _ _ _ _ _ V A E0) as ((E' & V') & P1 & P2 & P3 & _ & _).
  assert (D : In v (e_q (r_env s1)) \/ exists now, o = VTag now /\ ev_tag v = e_cur (r_env s1)).
  { destruct o; try (left; eapply P3; eassumption). destruct (tag_dec (ev_tag v) (e_cur (r_env s1))) as [Q|Q]; [right; eauto|left; eapply P3; eassumption]. }
  destruct D as [D|(now & -> & D)].
  - destruct (IH s1 s2 E' V' (B _ E0) R D Ht (P2 v d Hv D Hc)) as [Q|(pre & now & post & sa & sb & Q1 & Q2 & Q3)].
    + rewrite P1. exact Hp.
    + intros pre post s' Q1 Q2. apply (Hal (o :: pre) post); [rewrite Q1; reflexivity|cbn; rewrite E0; exact Q2].
    + left. exact Q.
    + right. exists (o :: pre), now, post, sa, sb. rewrite Q1. split; [reflexivity|]. split; [cbn; rewrite E0; exact Q2|exact Q3].
  - right. exists [], now, os, s, s1. split; [reflexivity|]. split; [reflexivity|]. split; [exact E0|]. split; [symmetry; exact D|].
    eapply (proj2 (tag_post _ _ _ _ _ _ _ V A E0)); try eassumption. apply (Hal [] (VTag now :: os) s); reflexivity.
Qed.

(** *** Boolean checkers for the examples *)
Definition counts_okb (s : tst) : bool := forallb (fun t => match ts_tok s t with Some k => tk_ref k + 1 <? two64 | None => true end) (seq 0 (ts_fresh s)).
Definition passedb (s : rt) (tr : nat) (tok : option nat) : bool :=
  match tok with Some t => usableb (e_tok (r_env s)) t && mem tr (ts_reg (e_tok (r_env s))) | None => true end.
Definition vop_okb (nd : bool) (s : rt) (o : vop) : bool :=
  let e := r_env s in
  counts_okb (e_tok e) &&
  match o with
  | VAct a => act_okb nd s a && match a with ASched _ tr _ tok => passedb s tr tok | _ => true end
  | VValue now tr extra _ | VInt now tr extra _ | VCopy now tr extra _ => sched_okb nd now e tr extra && mem tr (ts_reg (e_tok e))
  | VMsg tr t tok => passedb s tr tok && tag_okb t && (tmicro t <? UINT_MAX)
  | VTok o =>
      match o with
      | ONew _ _ | OInit _ _ => true
      | OSetToken i t => mem i (ts_reg (e_tok e)) && usableb (e_tok e) t
      | OClear i | OSet i _ => mem i (ts_reg (e_tok e))
      | OCopy i => match tp_tok (ts_tmpl (e_tok e) i) with Some t => match contents (e_tok e) t with Some _ => true | None => false end | None => true end
      | OHold _ | ODone _ | OValue _ _ | OEndTag => false
      end
  | VIdle => tmicro (e_cur e) <? UINT_MAX
  | VTag now => tag_ltb (e_cur e) (e_stop e) && in_rangeb s && (length (ts_bin (e_tok e)) + length (copies_of (e_tok e)) <=? BIN_LIMIT)%nat
  end.
Fixpoint vok_runb (P : prog) (kp nd : bool) (s : rt) (os : list vop) : bool :=
  match os with [] => true | o :: r => vop_okb nd s o && match vstep P kp nd s o with Ok s1 => vok_runb P kp nd s1 r | UB => true end end.
Lemma vop_okb_ok nd s E o : vinv s E -> vop_okb nd s o = true -> vop_ok nd s o.
Proof.
  intros (_ & _ & I & _) H. unfold vop_okb in H. cbv zeta in H. apply andb_true_iff in H. destruct H as (Hc & H). split.
  { intros t k Ht. destruct (Nat.lt_ge_cases t (ts_fresh (e_tok (r_env s)))) as [L|L]; [|rewrite (c_fresh _ _ (ti_core _ _ _ I) _ L) in Ht; discriminate].
    unfold counts_okb in Hc. rewrite forallb_forall in Hc. specialize (Hc t). rewrite Ht in Hc. apply Z.ltb_lt, Hc, in_seq. lia. }
  assert (Hp : forall tr tok, passedb s tr tok = true -> passed s tr tok).
  { intros tr [t|] Q; [|exact Logic.I]. apply andb_true_iff in Q. destruct Q as (Q1 & Q2). split; [apply usableb_ok, Q1|apply mem_In, Q2]. }
  destruct o as [a|now tr extra d|now tr extra v|now tr extra src|tr t tok|o| |now].
  - apply andb_true_iff in H. destruct H as (A & B). split; [|destruct a; [apply Hp, B| |]; exact Logic.I].
    destruct a; cbn in *; [apply sched_okb_ok, A|exact Logic.I|apply Z.ltb_lt, A].
  - apply andb_true_iff in H. destruct H as (A & B). split; [apply sched_okb_ok, A|apply mem_In, B].
  - apply andb_true_iff in H. destruct H as (A & B). split; [apply sched_okb_ok, A|apply mem_In, B].
  - apply andb_true_iff in H. destruct H as (A & B). split; [apply sched_okb_ok, A|apply mem_In, B].
  - rewrite !andb_true_iff in H. destruct H as ((A & B) & C). split; [apply Hp, A|]. split; [apply tag_okb_spec, B|apply Z.ltb_lt, C].
  - destruct o; try exact Logic.I; try discriminate; try (apply mem_In; exact H).
    + apply andb_true_iff in H. destruct H as (A & B). split; [apply mem_In, A|apply usableb_ok, B].
    + destruct (tp_tok _); [|exact Logic.I]. destruct (contents _ _); discriminate.
  - apply Z.ltb_lt, H.
  - rewrite !andb_true_iff in H. destruct H as ((A & B) & C). split; [apply tag_ltb_spec, A|]. split; [apply in_rangeb_ok, B|apply Nat.leb_le, C].
Qed.
Lemma vok_runb_ok P kp nd : forall os s E, vinv s E -> vok_runb P kp nd s os = true -> vok_run P kp nd s os.
Proof.
  induction os as [|o os IH]; intros s E V H; cbn in *; [exact Logic.I|]. apply andb_true_iff in H. destruct H as (A & B). pose proof (vop_okb_ok _ _ _ _ V A) as A'. split; [exact A'|].
  intros s1 H1. rewrite H1 in B. destruct (vstep_post _ _ _ _ _ _ _ V A' H1) as ((E' & V') & _). eapply IH; eassumption.
Qed.
Definition kcount (s : rt) (tr : nat) (t : tag) : nat :=
  length (filter (fun v => match ev_trig v with Some u => (u =? tr)%nat | None => false end && (tag_compare (ev_tag v) t =? 0)) (e_q (r_env s))).
Lemma alone_count s tr t : (kcount s tr t <= 1)%nat -> alone s tr t.
Proof.
  unfold kcount, alone. intros H a v b w c Q Hv Hw. unfold key in *. injection Hv as Hv1 Hv2. injection Hw as Hw1 Hw2.
  rewrite Q, filter_app in H. cbn [filter] in H. rewrite Hv1, Hv2, filter_app in H. cbn [filter] in H. rewrite Hw1, Hw2, Nat.eqb_refl in H.
  assert (T : tag_compare t t =? 0 = true) by (apply Z.eqb_eq, tag_compare_eq; reflexivity). rewrite T in H. cbn [andb] in H. rewrite app_length in H. cbn [length] in H. rewrite app_length in H. cbn [length] in H. lia.
Qed.
Fixpoint alongb (P : prog) (kp nd : bool) (f : rt -> bool) (s : rt) (os : list vop) : bool :=
  f s && match os with [] => true | o :: r => match vstep P kp nd s o with Ok s1 => alongb P kp nd f s1 r | UB => true end end.
Lemma alongb_ok P kp nd f : forall os s, alongb P kp nd f s os = true -> forall pre post s', os = pre ++ post -> vrun P kp nd s pre = Ok s' -> f s' = true.
Proof.
  induction os as [|o os IH]; intros s H pre post s' Q R; cbn in H; apply andb_true_iff in H; destruct H as (A & B).
  - destruct pre; [|discriminate]. injection R as <-. exact A.
  - destruct pre as [|o' pre]; [injection R as <-; exact A|]. cbn in Q. injection Q as <- Q. cbn in R. bind_inv R. eapply IH; eassumption.
Qed.
