(** Lemmas for C21-C24. *)
From Verif Require Import Base Tag TagSpec TagProofs Pqueue PqueueProofs Token TokenSpec TokenProofs Schedule ScheduleSpec.
From Coq Require Import Arith Permutation.
Open Scope Z_scope.

Ltac bind_inv H :=
  match type of H with
  | bind ?r _ = Ok _ => let x := fresh "x" in let E := fresh "E" in destruct r as [x|] eqn:E; cbn [bind] in H; [|discriminate H]
  end.

Lemma same_ev_spec tr t v : same_ev tr t v = true <-> key v = (tr, t).
Proof.
  unfold same_ev, opt_nat_eqb, key. rewrite andb_true_iff, opt_eqb_spec, Z.eqb_eq, tag_compare_eq. split; [intros (-> & ->); reflexivity|].
  intros H. injection H as -> ->. auto.
Qed.
Lemma find_ev_some q tr t v : find_ev q tr t = Some v -> In v q /\ key v = (tr, t).
Proof. intros H. apply find_some in H. rewrite same_ev_spec in H. exact H. Qed.
Lemma find_ev_none q tr t : find_ev q tr t = None -> ~ In (tr, t) (keys q).
Proof.
  intros H Hin. apply in_map_iff in Hin. destruct Hin as (v & Hk & Hv). pose proof (find_none _ _ H v Hv) as K.
  apply same_ev_spec in Hk. cbv beta in K. congruence.
Qed.
Lemma find_ev_in q tr t : In (tr, t) (keys q) -> find_ev q tr t <> None.
Proof. intros H E. exact (find_ev_none _ _ _ E H). Qed.
Lemma after_stop_spec e t : after_stop e t = false <-> tag_le t (e_stop e).
Proof. unfold after_stop. rewrite <- tag_compare_le. lia. Qed.

Lemma set_ev_tok_spec q tr t o v : find_ev q tr t = Some v ->
  exists a b, q = a ++ v :: b /\ set_ev_tok q tr t o = a ++ mkEv t tr o :: b.
Proof.
  induction q as [|w r IH]; intros H; [discriminate|]. change (find_ev (w :: r) tr t) with (if same_ev tr t w then Some w else find_ev r tr t) in H. cbn [set_ev_tok].
  destruct (same_ev tr t w) eqn:Ew.
  - injection H as ->. apply same_ev_spec in Ew. unfold key in Ew. injection Ew as -> ->. exists [], r. auto.
  - destruct (IH H) as (a & b & -> & ->). exists (w :: a), b. auto.
Qed.
Lemma set_ev_tok_keys q tr t o : keys (set_ev_tok q tr t o) = keys q.
Proof.
  induction q as [|w r IH]; [reflexivity|]. cbn [set_ev_tok]. destruct (same_ev tr t w); [reflexivity|]. cbn [keys map]. f_equal. exact IH.
Qed.

(** ** The search for a free microstep *)
Fixpoint bumps (k : nat) (t : tag) : tag := match k with O => t | S k => bumps k (bump t) end.
Lemma bumps_time k : forall t, ttime (bumps k t) = ttime t.
Proof. induction k; intros t; [reflexivity|]. cbn. rewrite IHk. reflexivity. Qed.
Lemma bumps_micro k : forall t, 0 <= tmicro t < two32 -> tmicro (bumps k t) = (tmicro t + Z.of_nat k) mod two32.
Proof.
  induction k; intros t Ht; [cbn; rewrite Z.add_0_r, Z.mod_small by exact Ht; reflexivity|]. cbn [bumps].
  rewrite IHk by (cbn; apply Z.mod_pos_bound; reflexivity). cbn [bump tmicro]. rewrite Zplus_mod_idemp_l. f_equal. lia.
Qed.
Lemma bumps_bump k t : bumps k (bump t) = bumps (S k) t.
Proof. reflexivity. Qed.
Lemma first_free_spec f q tr : forall t t2, first_free f q tr t = Ok t2 ->
  ~ In (Some tr, t2) (keys q) /\ exists k, (k <= f)%nat /\ t2 = bumps k t /\ forall j, (j < k)%nat -> In (Some tr, bumps j t) (keys q).
Proof.
  induction f as [|f IH]; intros t t2 H; cbn in H; destruct (find_ev q (Some tr) t) as [v|] eqn:Ev; try discriminate.
  - injection H as <-. split; [apply find_ev_none, Ev|]. exists O. split; [lia|]. split; [reflexivity|]. intros; lia.
  - destruct (IH _ _ H) as (A & k & B & -> & D). split; [exact A|]. exists (S k). split; [lia|]. split; [reflexivity|].
    intros [|j] Hj; [|apply D; lia]. apply find_ev_some in Ev. destruct Ev as (Hv & Hk). cbn [bumps]. rewrite <- Hk. apply (in_map key), Hv.
  - injection H as <-. split; [apply find_ev_none, Ev|]. exists O. split; [lia|]. split; [reflexivity|]. intros; lia.
Qed.
Lemma first_free_ub f q tr : forall t, first_free f q tr t = UB -> forall j, (j <= f)%nat -> In (Some tr, bumps j t) (keys q).
Proof.
  induction f as [|f IH]; intros t H j Hj; cbn in H; destruct (find_ev q (Some tr) t) as [v|] eqn:Ev; try discriminate.
  all: apply find_ev_some in Ev; destruct Ev as (Hv & Hk); apply (in_map key) in Hv; rewrite Hk in Hv.
  - replace j with O by lia. exact Hv.
  - destruct j as [|j]; [exact Hv|]. apply (IH _ H). lia.
Qed.
Lemma first_free_total q tr t : 0 <= tmicro t <= UINT_MAX -> Z.of_nat (length q) <= UINT_MAX -> first_free (length q) q tr t <> UB.
Proof.
  intros Ht Hl H. pose proof (first_free_ub _ _ _ _ H) as K.
  set (l := map (fun j => (Some tr, bumps j t)) (seq 0 (S (length q)))).
  assert (Hnd : NoDup l).
  { subst l. assert (G : forall n s, (s + n <= S (length q))%nat -> NoDup (map (fun j => (Some tr, bumps j t)) (seq s n))).
    { induction n; intros s Hs; cbn; constructor; [|apply IHn; lia]. intros Hin. apply in_map_iff in Hin. destruct Hin as (j & Hj & Hjs).
      apply in_seq in Hjs. assert (E : tmicro (bumps j t) = tmicro (bumps s t)) by congruence.
      rewrite !bumps_micro in E by (unfold two32, UINT_MAX in *; lia).
      assert (E2 : (tmicro t + Z.of_nat j - (tmicro t + Z.of_nat s)) mod two32 = 0) by (rewrite Zminus_mod, E, Z.sub_diag; reflexivity).
      replace (tmicro t + Z.of_nat j - (tmicro t + Z.of_nat s)) with (Z.of_nat (j - s)) in E2 by lia.
      rewrite Z.mod_small in E2 by (unfold two32, UINT_MAX in *; lia). lia. }
    apply G. lia. }
  assert (Hi : incl l (keys q)).
  { intros x Hx. apply in_map_iff in Hx. destruct Hx as (j & <- & Hj). apply in_seq in Hj. apply K. lia. }
  pose proof (NoDup_incl_length Hnd Hi) as L. subst l. rewrite map_length, seq_length in L. unfold keys in L. rewrite map_length in L. lia.
Qed.

(** ** What a call does *)
Definition base (nd : bool) (now : Z) (e : env) (g : trig) (extra : Z) : tag :=
  if tg_phys g then mkTag (now + total_delay g extra) 0 else clamp_now nd e (delay_tag (e_cur e) (total_delay g extra)).
Definition settle (nd : bool) (e : env) (t : tag) : tag :=
  let t1 := clamp_now nd e t in if tag_compare t1 (e_cur e) =? 0 then bump t1 else t1.
Definition early (g : trig) (t : tag) : Prop := spaced g /\ ttime (tg_last g) <> NEVER /\ ttime t < ttime (tg_last g) + tg_period g.

Inductive call (nd : bool) (now : Z) (e : env) (tr : nat) (extra : Z) (tok : option nat) (e' : env) (h : Z) : Prop :=
| call_none : e_q e' = e_q e -> e_tr e' = e_tr e -> h = 0 -> e_handle e' = e_handle e -> call nd now e tr extra tok e' h
| call_replace v : e_q e' = set_ev_tok (e_q e) (Some tr) (tg_last (e_tr e tr)) tok -> find_ev (e_q e) (Some tr) (tg_last (e_tr e tr)) = Some v ->
    early (e_tr e tr) (base nd now e (e_tr e tr) extra) -> tg_policy (e_tr e tr) = PReplace ->
    e_tr e' = e_tr e -> h = 0 -> e_handle e' = e_handle e -> call nd now e tr extra tok e' h
| call_pile t : e_q e' = mkEv t (Some tr) tok :: e_q e -> e_tr e' = e_tr (with_last e tr t) -> tag_le t (e_stop e) ->
    tg_period (e_tr e tr) <= 0 -> In (Some tr, base nd now e (e_tr e tr) extra) (keys (e_q e)) ->
    first_free (length (e_q e)) (e_q e) tr (base nd now e (e_tr e tr) extra) = Ok t -> h = 0 -> e_handle e' = e_handle e -> call nd now e tr extra tok e' h
| call_insert b : e_q e' = mkEv (settle nd e b) (Some tr) tok :: e_q e -> e_tr e' = e_tr (with_last e tr (settle nd e b)) -> tag_le (settle nd e b) (e_stop e) ->
    (b = base nd now e (e_tr e tr) extra /\ ~ early (e_tr e tr) b /\ (tg_period (e_tr e tr) <= 0 -> ~ In (Some tr, b) (keys (e_q e)))
     \/ b = mkTag (ttime (tg_last (e_tr e tr)) + tg_period (e_tr e tr)) 0 /\ early (e_tr e tr) (base nd now e (e_tr e tr) extra) /\ tg_policy (e_tr e tr) <> PDrop) ->
    h = e_handle e -> e_handle e < INT_MAX -> e_handle e' = (if e_handle e + 1 <? 0 then 1 else e_handle e + 1) -> call nd now e tr extra tok e' h.

Definition same_clock (e e' : env) : Prop := e_cur e' = e_cur e /\ e_stop e' = e_stop e /\ e_started e' = e_started e.

Lemma release_inv e o e' : release e o = Ok e' -> exists s, e' = with_tok e s.
Proof. intros H. unfold release in H. bind_inv H. injection H as <-. eauto. Qed.

Lemma finish_inv nd e s tr b tok e' h :
  sched_finish nd (with_tok e s) tr b tok = Ok (e', h) -> same_clock e e' /\
  ((e_q e' = e_q e /\ e_tr e' = e_tr e /\ h = 0 /\ e_handle e' = e_handle e) \/
   (e_q e' = mkEv (settle nd e b) (Some tr) tok :: e_q e /\ e_tr e' = e_tr (with_last e tr (settle nd e b)) /\ tag_le (settle nd e b) (e_stop e) /\
    h = e_handle e /\ e_handle e < INT_MAX /\ e_handle e' = (if e_handle e + 1 <? 0 then 1 else e_handle e + 1))).
Proof.
  intros H. unfold sched_finish in H. cbv zeta in H.
  change (clamp_now nd (with_tok e s) b) with (clamp_now nd e b) in H. change (e_cur (with_tok e s)) with (e_cur e) in H.
  change (if tag_compare (clamp_now nd e b) (e_cur e) =? 0 then bump (clamp_now nd e b) else clamp_now nd e b) with (settle nd e b) in H.
  change (after_stop (with_tok e s) (settle nd e b)) with (after_stop e (settle nd e b)) in H.
  destruct (after_stop e (settle nd e b)) eqn:Ea.
  - bind_inv H. injection H as <- <-. apply release_inv in E. destruct E as (s' & ->). split; [repeat split|]. left. auto.
  - unfold take_handle in H. change (e_handle (insert_ev _ _)) with (e_handle e) in H. destruct (e_handle e <? INT_MAX) eqn:Eh; [|discriminate].
    injection H as <- <-. split; [repeat split|]. right. apply after_stop_spec in Ea. repeat split; try assumption. lia.
Qed.

Lemma total_delay_ok g extra d :
  (if tg_timer g then Ok (if extra <? 0 then 0 else extra) else c_add64 (if extra <? 0 then 0 else extra) (tg_offset g)) = Ok d -> d = total_delay g extra.
Proof.
  unfold total_delay, c_add64. destruct (tg_timer g); [|destruct (in_int64b _); [|discriminate]]; intros H; injection H as <-; case_if; lia.
Qed.

Lemma sched_call nd now e tr extra tok e' h : sched nd now e (Some tr) extra tok = Ok (e', h) ->
  same_clock e e' /\ call nd now e tr extra tok e' h.
Proof.
  intros H. unfold sched in H. destruct (after_stop e (e_cur e)).
  { bind_inv H. injection H as <- <-. apply release_inv in E. destruct E as (s' & ->). split; [repeat split|]. apply call_none; reflexivity. }
  bind_inv H. rename x into s1. cbv zeta in H. change (e_tr (with_tok e s1)) with (e_tr e) in H.
  change (e_q (with_tok e s1)) with (e_q e) in H. change (e_cur (with_tok e s1)) with (e_cur e) in H.
  set (g := e_tr e tr) in *. bind_inv H. apply total_delay_ok in E0. subst x. bind_inv H. rename x into b.
  assert (Eb : b = base nd now e g extra).
  { unfold base. destruct (tg_phys g); [|injection E0 as <-; reflexivity]. unfold c_add64 in E0. destruct (in_int64b _); cbn [bind] in E0; [|discriminate].
    injection E0 as <-. reflexivity. }
  clear E0. destruct (tg_period g <=? 0) eqn:Ep.
  - destruct (find_ev (e_q e) (Some tr) b) as [v|] eqn:Ef.
    + bind_inv H. rename x into t2. change (after_stop (with_tok e s1) t2) with (after_stop e t2) in H. destruct (after_stop e t2) eqn:Ea.
      * injection H as <- <-. split; [repeat split|]. apply call_none; reflexivity.
      * injection H as <- <-. split; [repeat split|]. apply after_stop_spec in Ea. subst b. apply find_ev_some in Ef. destruct Ef as (Hv & Hk).
        apply (in_map key) in Hv. rewrite Hk in Hv. apply Z.leb_le in Ep.
        eapply call_pile; try reflexivity; eassumption.
    + apply finish_inv in H. destruct H as (A & [(B1 & B2 & B3 & B4)|(B1 & B2 & B3 & B4 & B5 & B6)]); (split; [exact A|]).
      * apply call_none; assumption.
      * eapply call_insert; try eassumption. left. split; [exact Eb|]. split; [unfold early, spaced; fold g; lia|]. intros _. apply find_ev_none, Ef.
  - assert (F : ~ early g b -> sched_finish nd (with_tok e s1) tr b tok = Ok (e', h) -> same_clock e e' /\ call nd now e tr extra tok e' h).
    { intros Hne H0. apply finish_inv in H0. destruct H0 as (A & [(B1 & B2 & B3 & B4)|(B1 & B2 & B3 & B4 & B5 & B6)]); (split; [exact A|]).
      * apply call_none; assumption.
      * eapply call_insert; try eassumption. left. split; [exact Eb|]. split; [exact Hne|]. fold g. lia. }
    destruct (negb (tg_timer g) && negb (ttime (tg_last g) =? NEVER)) eqn:Et.
    + bind_inv H. rename x into ea. unfold c_add64 in E0. destruct (in_int64b _) eqn:E64; [|discriminate]. injection E0 as <-.
      destruct (ttime b <? ttime (tg_last g) + tg_period g) eqn:El; [|apply F; [unfold early, spaced; lia|exact H]].
      assert (Hearly : early g (base nd now e g extra)) by (rewrite <- Eb; unfold early, spaced; repeat split; try lia; destruct (tg_timer g); cbn in Et; congruence).
      assert (G : tg_policy g <> PDrop -> sched_finish nd (with_tok e s1) tr (mkTag (ttime (tg_last g) + tg_period g) 0) tok = Ok (e', h) ->
         same_clock e e' /\ call nd now e tr extra tok e' h).
      { intros Hne H0. apply finish_inv in H0. destruct H0 as (A & [(B1 & B2 & B3 & B4)|(B1 & B2 & B3 & B4 & B5 & B6)]); (split; [exact A|]).
        * apply call_none; assumption.
        * eapply call_insert; try eassumption. right. repeat split; try assumption; apply Hearly. }
      destruct (tg_policy g) eqn:Epol.
      * apply G; [congruence|exact H].
      * bind_inv H. injection H as <- <-. apply release_inv in E0. destruct E0 as (s' & ->). split; [repeat split|]. apply call_none; reflexivity.
      * destruct (find_ev (e_q e) (Some tr) (tg_last g)) as [v|] eqn:Ef; [|apply G; [congruence|exact H]].
        unfold replace_ev_token in H.
        assert (K : exists s2, e' = with_q (with_tok e s2) (set_ev_tok (e_q e) (Some tr) (tg_last g) tok) /\ h = 0).
        { destruct (opt_eqb (ev_tok v) tok).
          - cbn [bind] in H. injection H as <- <-. exists s1. split; reflexivity.
          - bind_inv H. bind_inv E0. injection E0 as <-. injection H as <- <-. apply release_inv in E1. destruct E1 as (s' & ->). exists s'. split; reflexivity. }
        destruct K as (s2 & -> & ->). split; [repeat split|]. eapply call_replace; try reflexivity; eassumption.
    + apply F; [|exact H]. unfold early, spaced. intros ((_ & A) & B & _). rewrite A in Et. apply Z.eqb_neq in B. rewrite B in Et. discriminate.
Qed.

(** ** C21 *)
Lemma delay_after t d : tag_ok t -> NEVER < ttime t < FOREVER -> 0 <= d -> tmicro t < UINT_MAX ->
  tag_lt t (delay_tag t d) /\ 0 <= tmicro (delay_tag t d) <= UINT_MAX /\
  (ttime (delay_tag t d) = ttime t -> tmicro (delay_tag t d) = tmicro t + 1).
Proof.
  intros Ht Hn Hd Hm. unfold delay_tag.
  rewrite (Z.mod_small (tmicro t + 1)) by (tag_consts; lia). repeat case_if; tag_consts; cbn; lia.
Qed.
Lemma clamp_id nd e t : ttime (e_cur e) <= ttime t -> clamp_now nd e t = t.
Proof. intros H. unfold clamp_now. destruct (negb nd && (ttime t <? ttime (e_cur e))) eqn:E; [lia|reflexivity]. Qed.
Lemma settle_id nd e t : tag_lt (e_cur e) t -> settle nd e t = t.
Proof.
  intros H. unfold settle. rewrite clamp_id by (unfold tag_lt in H; lia).
  destruct (tag_compare t (e_cur e) =? 0) eqn:E; [|reflexivity]. apply Z.eqb_eq, tag_compare_eq in E. subst. destruct (tag_lt_irrefl _ H).
Qed.
Lemma settle_time nd e t : ttime t <= ttime (settle nd e t).
Proof.
  unfold settle. assert (ttime t <= ttime (clamp_now nd e t)) by (unfold clamp_now; destruct (negb nd && (ttime t <? ttime (e_cur e))) eqn:E; cbn; lia).
  destruct (_ =? 0); cbn; assumption.
Qed.
Lemma offset_ok nd now e tr extra : sched_ok nd now e tr extra -> 0 <= total_delay (e_tr e tr) extra.
Proof. intros (_ & _ & _ & H & _). unfold total_delay. destruct (tg_timer _); [lia|]. specialize (H eq_refl). lia. Qed.

Lemma base_logical nd now e tr extra : sched_ok nd now e tr extra -> tg_phys (e_tr e tr) = false ->
  let b := base nd now e (e_tr e tr) extra in
  b = delay_tag (e_cur e) (total_delay (e_tr e tr) extra) /\ tag_lt (e_cur e) b /\ 0 <= tmicro b <= UINT_MAX /\
  (ttime b = ttime (e_cur e) -> tmicro b = tmicro (e_cur e) + 1).
Proof.
  intros H Hp b. pose proof (offset_ok _ _ _ _ _ H) as Hd. destruct H as (H1 & H2 & H3 & H4 & H5). rewrite Hp in H5.
  destruct (delay_after (e_cur e) (total_delay (e_tr e tr) extra) H1 H2 Hd ltac:(lia)) as (A & B & D).
  assert (Eb : b = delay_tag (e_cur e) (total_delay (e_tr e tr) extra)).
  { unfold b, base. rewrite Hp. apply clamp_id. unfold tag_lt in A. lia. }
  rewrite Eb. auto.
Qed.

Lemma settle_after nd now e tr extra : sched_ok nd now e tr extra -> tag_lt (e_cur e) (settle nd e (base nd now e (e_tr e tr) extra)).
Proof.
  intros H. destruct (tg_phys (e_tr e tr)) eqn:Hp.
  - destruct H as (H1 & H2 & H3 & H4 & H5). rewrite Hp in H5. unfold base. rewrite Hp. set (x := now + _) in *.
    destruct (Z_lt_le_dec (ttime (e_cur e)) x) as [L|L].
    + rewrite settle_id; unfold tag_lt; cbn; lia.
    + destruct H5 as [?|(Hm & Hx)]; [lia|]. unfold settle.
      assert (E : clamp_now nd e (mkTag x 0) = e_cur e).
      { destruct Hx as [Hx|Hx].
        - rewrite clamp_id by (cbn; lia). apply tag_eq; cbn; lia.
        - unfold clamp_now. subst nd. cbn [negb andb ttime]. destruct (x <? ttime (e_cur e)) eqn:Ex; apply tag_eq; cbn; lia. }
      rewrite E. rewrite (proj2 (tag_compare_eq _ _) eq_refl). cbn [Z.eqb]. unfold bump, tag_lt; cbn. rewrite Hm. cbn. lia.
  - destruct (base_logical _ _ _ _ _ H Hp) as (_ & A & _). rewrite settle_id; exact A.
Qed.

Lemma pile_after nd now e tr extra t : sched_ok nd now e tr extra ->
  In (Some tr, base nd now e (e_tr e tr) extra) (keys (e_q e)) ->
  first_free (length (e_q e)) (e_q e) tr (base nd now e (e_tr e tr) extra) = Ok t -> tag_lt (e_cur e) t.
Proof.
  intros H Hin Hf. destruct (first_free_spec _ _ _ _ _ Hf) as (_ & k & Hk & -> & _).
  assert (Hq : tag_lt (e_cur e) (base nd now e (e_tr e tr) extra)).
  { apply in_map_iff in Hin. destruct Hin as (v & Hv & Hin). destruct H as (_ & _ & H3 & _). apply H3 in Hin. unfold key in Hv. injection Hv as _ <-. exact Hin. }
  destruct (tg_phys (e_tr e tr)) eqn:Hp.
  - left. rewrite bumps_time. destruct Hq as [Hq|(Hq & Hm)]; [exact Hq|]. destruct H as (H1 & _). unfold base in Hm. rewrite Hp in Hm. cbn in Hm. tag_consts. lia.
  - destruct (base_logical _ _ _ _ _ H Hp) as (_ & A & B & D). destruct H as (H1 & H2 & H3 & H4 & H5). rewrite Hp in H5.
    unfold tag_lt in *. rewrite bumps_time. rewrite bumps_micro by (tag_consts; unfold two32; lia). destruct Hq as [Hq|(Hq & Hm)]; [left; exact Hq|]. right. split; [exact Hq|].
    specialize (D (eq_sym Hq)). rewrite D, Z.mod_small by (tag_consts; unfold two32; lia). lia.
Qed.

Lemma defer_after nd now e tr extra : sched_ok nd now e tr extra -> early (e_tr e tr) (base nd now e (e_tr e tr) extra) ->
  let b := mkTag (ttime (tg_last (e_tr e tr)) + tg_period (e_tr e tr)) 0 in tag_lt (e_cur e) (settle nd e b).
Proof.
  intros H (Hs & Hn & He) b. destruct (tg_phys (e_tr e tr)) eqn:Hp.
  - destruct H as (H1 & H2 & H3 & H4 & H5). rewrite Hp in H5. unfold base in He. rewrite Hp in He. cbn [ttime] in He.
    destruct (Z_lt_le_dec (ttime (e_cur e)) (ttime b)) as [L|L].
    + rewrite settle_id; left; exact L.
    + destruct H5 as [?|(Hm & Hx)]; [cbn in L; lia|]. unfold settle.
      assert (E : clamp_now nd e b = e_cur e).
      { destruct Hx as [Hx|Hx].
        - cbn in L. lia.
        - unfold clamp_now. subst nd. cbn [negb andb ttime]. destruct (ttime b <? ttime (e_cur e)) eqn:Ex; apply tag_eq; cbn in *; lia. }
      rewrite E. rewrite (proj2 (tag_compare_eq _ _) eq_refl). cbn [Z.eqb]. unfold bump, tag_lt; cbn. rewrite Hm. cbn. lia.
  - destruct (base_logical _ _ _ _ _ H Hp) as (_ & A & _). rewrite settle_id; left; unfold tag_lt in A; cbn; lia.
Qed.

Lemma replace_revalued e e' tr t tok v : e_q e' = set_ev_tok (e_q e) (Some tr) t tok -> find_ev (e_q e) (Some tr) t = Some v -> revalued e e' tr t tok.
Proof.
  intros Hq Hf. destruct (set_ev_tok_spec _ _ _ tok _ Hf) as (a & b & Ea & Eb). apply find_ev_some in Hf.
  exists a, v, b. rewrite Hq, Eb. split; [exact Ea|]. split; [apply Hf|reflexivity].
Qed.

Lemma sched_effect nd now e tr extra tok e' h : sched nd now e (Some tr) extra tok = Ok (e', h) -> sched_ok nd now e tr extra ->
  e_q e' = e_q e \/ (exists t, revalued e e' tr t tok) \/
  (exists t, inserted e e' (mkEv t (Some tr) tok) /\ tag_lt (e_cur e) t /\ tag_le t (e_stop e)).
Proof.
  intros H Hok. apply sched_call in H. destruct H as (_ & [A|v A B|t A B D F G I|b A B D F]).
  - left; exact A.
  - right; left. eexists. eapply replace_revalued; eassumption.
  - right; right. exists t. split; [exact A|]. split; [|exact D]. eapply pile_after; eassumption.
  - right; right. exists (settle nd e b). split; [exact A|]. split; [|exact D].
    destruct F as [(-> & _)|(-> & F & _)]; [eapply settle_after; eassumption|eapply defer_after; eassumption].
Qed.

(** ** Messages at explicit tags *)
Inductive call_at (e : env) (tr : nat) (t : tag) (tok : option nat) (e' : env) (h : Z) : Prop :=
| at_none : e_q e' = e_q e -> h <= 0 -> e_handle e' = e_handle e -> call_at e tr t tok e' h
| at_replace v : e_q e' = set_ev_tok (e_q e) (Some tr) t tok -> find_ev (e_q e) (Some tr) t = Some v -> tg_policy (e_tr e tr) = PReplace -> h = 0 ->
    e_handle e' = e_handle e -> call_at e tr t tok e' h
| at_insert t2 : e_q e' = mkEv t2 (Some tr) tok :: e_q e -> tag_le t2 (e_stop e) ->
    (t2 = t /\ ~ In (Some tr, t) (keys (e_q e)) \/ t2 = bump t /\ In (Some tr, t) (keys (e_q e)) /\ tg_policy (e_tr e tr) = PDefer) ->
    (e_started e = true -> tag_lt (e_cur e) t) -> h = e_handle e -> e_handle e < INT_MAX ->
    e_handle e' = (if e_handle e + 1 <? 0 then 1 else e_handle e + 1) -> call_at e tr t tok e' h.

Lemma at_call e tr t tok e' h : sched_at e tr t tok = Ok (e', h) -> same_clock e e' /\ e_tr e' = e_tr e /\ call_at e tr t tok e' h.
Proof.
  intros H. unfold sched_at in H.
  destruct ((tag_compare t (e_cur e) <=? 0) && e_started e) eqn:Ec.
  { injection H as <- <-. split; [repeat split|]. split; [reflexivity|]. apply at_none; [reflexivity|lia|reflexivity]. }
  bind_inv H. rename x into s1. cbv zeta in H. change (after_stop (with_tok e s1)) with (after_stop e) in H.
  change (e_q (with_tok e s1)) with (e_q e) in H. change (e_tr (with_tok e s1)) with (e_tr e) in H.
  assert (Hcur : e_started e = true -> tag_lt (e_cur e) t).
  { intros Hs. rewrite Hs, andb_true_r in Ec. apply tag_not_le. rewrite <- tag_compare_le. lia. }
  destruct (after_stop e t) eqn:Ea.
  { bind_inv H. injection H as <- <-. apply release_inv in E0. destruct E0 as (s2 & ->). split; [repeat split|]. split; [reflexivity|]. apply at_none; [reflexivity|lia|reflexivity]. }
  apply after_stop_spec in Ea.
  destruct (find_ev (e_q e) (Some tr) t) as [v|] eqn:Ef.
  - destruct (tg_policy (e_tr e tr)) eqn:Epol.
    + destruct (after_stop e (bump t)) eqn:Ea2.
      * injection H as <- <-. split; [repeat split|]. split; [reflexivity|]. apply at_none; [reflexivity|lia|reflexivity].
      * apply after_stop_spec in Ea2. unfold take_handle in H. change (e_handle (insert_ev _ _)) with (e_handle e) in H.
        destruct (e_handle e <? INT_MAX) eqn:Eh; [|discriminate]. injection H as <- <-. split; [repeat split|]. split; [reflexivity|].
        apply find_ev_some in Ef. destruct Ef as (Hv & Hk). apply (in_map key) in Hv. rewrite Hk in Hv.
        eapply (at_insert _ _ _ _ _ _ (bump t)); try reflexivity; try assumption; [right; auto|lia].
    + destruct (opt_eqb (ev_tok v) tok).
      * cbn [bind] in H. injection H as <- <-. split; [repeat split|]. split; [reflexivity|]. apply at_none; [reflexivity|lia|reflexivity].
      * bind_inv H. injection H as <- <-. apply release_inv in E0. destruct E0 as (s2 & ->). split; [repeat split|]. split; [reflexivity|]. apply at_none; [reflexivity|lia|reflexivity].
    + unfold replace_ev_token in H.
      assert (K : exists s2, e' = with_q (with_tok e s2) (set_ev_tok (e_q e) (Some tr) t tok) /\ h = 0).
      { destruct (opt_eqb (ev_tok v) tok).
        - cbn [bind] in H. injection H as <- <-. exists s1. split; reflexivity.
        - bind_inv H. bind_inv E0. injection E0 as <-. injection H as <- <-. apply release_inv in E1. destruct E1 as (s' & ->). exists s'. split; reflexivity. }
      destruct K as (s2 & -> & ->). split; [repeat split|]. split; [reflexivity|]. eapply at_replace; try reflexivity; eassumption.
  - unfold take_handle in H. change (e_handle (insert_ev _ _)) with (e_handle e) in H.
    destruct (e_handle e <? INT_MAX) eqn:Eh; [|discriminate]. injection H as <- <-. split; [repeat split|]. split; [reflexivity|].
    eapply (at_insert _ _ _ _ _ _ t); try reflexivity; try assumption; [left; split; [reflexivity|apply find_ev_none, Ef]|lia].
Qed.

(** ** C22 *)
Lemma set_ev_tok_length q tr t o : length (set_ev_tok q tr t o) = length q.
Proof. rewrite <- (map_length key q). change (map key q) with (keys q). rewrite <- (set_ev_tok_keys q tr t o). unfold keys. rewrite map_length. reflexivity. Qed.
Lemma new_event_none e e' : (length (e_q e') <= length (e_q e))%nat -> new_event e e' = None.
Proof. intros H. unfold new_event. destruct (Nat.ltb_spec (length (e_q e)) (length (e_q e'))); [lia|reflexivity]. Qed.
Lemma new_event_cons e e' v : e_q e' = v :: e_q e -> new_event e e' = Some v.
Proof. intros H. unfold new_event. rewrite H. cbn [length hd_error]. destruct (Nat.ltb_spec (length (e_q e)) (S (length (e_q e)))); [reflexivity|lia]. Qed.
Lemma filter_length_le {A} (f : A -> bool) l : (length (filter f l) <= length l)%nat.
Proof. induction l; cbn; [lia|]. destruct (f a); cbn; lia. Qed.

Lemma delay_time t d : 0 <= d -> ttime t <= FOREVER -> ttime t <= ttime (delay_tag t d).
Proof. intros Hd Hf. unfold delay_tag. repeat case_if; cbn; unfold FOREVER_TAG; cbn; lia. Qed.
Lemma clamp_time nd e t : ttime t <= ttime (clamp_now nd e t).
Proof. unfold clamp_now. destruct (negb nd && (ttime t <? ttime (e_cur e))) eqn:E; cbn; lia. Qed.

Lemma with_last_same e tr t : e_tr (with_last e tr t) tr = mkTrig (tg_timer (e_tr e tr)) (tg_phys (e_tr e tr)) (tg_offset (e_tr e tr)) (tg_period (e_tr e tr)) (tg_policy (e_tr e tr)) t.
Proof. unfold with_last. cbn [e_tr]. apply upd_eq. Qed.
Lemma with_last_other e tr t u : u <> tr -> e_tr (with_last e tr t) u = e_tr e u.
Proof. intros H. unfold with_last. cbn [e_tr]. apply upd_neq. exact H. Qed.

Definition spaced_by (s : Z) (g : trig) : Prop := 0 < s /\ tg_period g = s /\ tg_timer g = false.
Definition last_ok (g : trig) : Prop := ttime (tg_last g) = NEVER \/ 0 <= ttime (tg_last g).

(** One step of a disciplined history, seen by the spaced action [tr]. *)
Lemma spacing_step nd tr s e o e' h : spacing_op tr e o -> sstep nd e o = Ok (e', h) -> spaced_by s (e_tr e tr) -> last_ok (e_tr e tr) ->
  spaced_by s (e_tr e' tr) /\ last_ok (e_tr e' tr) /\
  match new_event e e' with
  | Some v => if opt_eqb (ev_trig v) (Some tr)
              then tg_last (e_tr e' tr) = ev_tag v /\ 0 <= ttime (ev_tag v) /\ (ttime (tg_last (e_tr e tr)) <> NEVER -> ttime (tg_last (e_tr e tr)) + s <= ttime (ev_tag v))
              else tg_last (e_tr e' tr) = tg_last (e_tr e tr)
  | None => tg_last (e_tr e' tr) = tg_last (e_tr e tr)
  end.
Proof.
  intros Hop Hs (Hs1 & Hs2 & Hs3) Hl. destruct o as [now t extra tok|t tg tok|t|t]; cbn [sstep spacing_op] in *.
  - apply sched_call in Hs. destruct Hs as (_ & Hc). destruct (Nat.eq_dec t tr) as [->|Hne].
    + specialize (Hop eq_refl). destruct Hop as (Hnow & Hcur & Hoff).
      assert (Hsp : spaced (e_tr e tr)) by (split; [lia|exact Hs3]).
      destruct Hc as [A B|v A _ _ _ B|b A B D F|b A B D F].
      * rewrite (new_event_none e e') by (rewrite A; lia). rewrite B. repeat split; assumption.
      * rewrite (new_event_none e e') by (rewrite A, set_ev_tok_length; lia). rewrite B. repeat split; assumption.
      * lia.
      * rewrite (new_event_cons _ _ _ A). cbn [ev_trig ev_tag]. rewrite (proj2 (opt_eqb_spec _ _) eq_refl).
        rewrite B, with_last_same. cbn [tg_last tg_period tg_timer].
        assert (Hb : 0 <= ttime b /\ (ttime (tg_last (e_tr e tr)) <> NEVER -> ttime (tg_last (e_tr e tr)) + s <= ttime b)).
        { destruct F as [(Eb & Hne & _)|(-> & (_ & HN & _) & _)].
          - split.
            + subst b. unfold base, total_delay. rewrite Hs3. destruct (tg_phys (e_tr e tr)); [cbn; lia|].
              destruct (Z_le_gt_dec (ttime (e_cur e)) FOREVER) as [Q|Q].
              * pose proof (clamp_time nd e (delay_tag (e_cur e) (Z.max 0 extra + tg_offset (e_tr e tr)))).
                pose proof (delay_time (e_cur e) (Z.max 0 extra + tg_offset (e_tr e tr)) ltac:(lia) Q). lia.
              * pose proof (clamp_time nd e (delay_tag (e_cur e) (Z.max 0 extra + tg_offset (e_tr e tr)))) as Q2.
                assert (0 <= ttime (delay_tag (e_cur e) (Z.max 0 extra + tg_offset (e_tr e tr)))); [|lia].
                unfold delay_tag. repeat case_if; cbn; unfold FOREVER, LLONG_MAX; lia.
            + intros HN. destruct (Z_le_gt_dec (ttime (tg_last (e_tr e tr)) + s) (ttime b)); [assumption|]. exfalso. apply Hne. repeat split; try lia; assumption.
          - cbn [ttime]. destruct Hl as [Hl|Hl]; [contradiction|]. rewrite Hs2. split; intros; lia. }
        pose proof (settle_time nd e b) as Hst. repeat split; try assumption; try lia. right. cbn [tg_last]. lia.
    + assert (Hsame : e_tr e' tr = e_tr e tr).
      { destruct Hc as [A B|v A _ _ _ B|b A B D F|b A B D F]; rewrite B; try reflexivity; apply with_last_other; congruence. }
      rewrite Hsame. split; [repeat split; assumption|]. split; [assumption|].
      destruct Hc as [A B|v A _ _ _ B|b A B D F|b A B D F].
      * rewrite (new_event_none e e') by (rewrite A; lia). reflexivity.
      * rewrite (new_event_none e e') by (rewrite A, set_ev_tok_length; lia). reflexivity.
      * rewrite (new_event_cons _ _ _ A). cbn [ev_trig]. destruct (opt_eqb (Some t) (Some tr)) eqn:E; [|reflexivity]. apply opt_eqb_spec in E. congruence.
      * rewrite (new_event_cons _ _ _ A). cbn [ev_trig]. destruct (opt_eqb (Some t) (Some tr)) eqn:E; [|reflexivity]. apply opt_eqb_spec in E. congruence.
  - apply at_call in Hs. destruct Hs as (_ & Htr & Hc). rewrite Htr. split; [repeat split; assumption|]. split; [assumption|].
    destruct Hc as [A|v A|b A].
    * rewrite (new_event_none e e') by (rewrite A; lia). reflexivity.
    * rewrite (new_event_none e e') by (rewrite A, set_ev_tok_length; lia). reflexivity.
    * rewrite (new_event_cons _ _ _ A). cbn [ev_trig]. destruct (opt_eqb (Some t) (Some tr)) eqn:E; [|reflexivity]. apply opt_eqb_spec in E. congruence.
  - injection Hs as <- <-. rewrite new_event_none by (cbn [with_q with_cur e_q]; apply filter_length_le). repeat split; assumption.
  - injection Hs as <- <-. destruct (_ <? 0); (rewrite new_event_none by (cbn [with_stop e_q]; lia)); repeat split; assumption.
Qed.

Lemma spacing_all nd tr s : forall os e, spaced_by s (e_tr e tr) -> last_ok (e_tr e tr) -> spacing_run nd tr e os ->
  apart s (tags_given nd tr e os) /\ (ttime (tg_last (e_tr e tr)) <> NEVER -> forall u, In u (tags_given nd tr e os) -> ttime (tg_last (e_tr e tr)) + s <= ttime u).
Proof.
  induction os as [|o r IH]; intros e Hs Hl Hr; cbn [tags_given]; [split; [constructor|intros _ u []]|].
  destruct Hr as (Hop & Hr). destruct (sstep nd e o) as [[e' h]|] eqn:Es; [|split; [constructor|intros _ u []]].
  destruct (spacing_step nd tr s e o e' h Hop Es Hs Hl) as (Hs' & Hl' & Hn).
  destruct (IH e' Hs' Hl' (Hr e' h eq_refl)) as (A & B).
  destruct (new_event e e') as [v|]; [|cbn [app]; split; [exact A|]; rewrite <- Hn; exact B].
  destruct (opt_eqb (ev_trig v) (Some tr)); [|cbn [app]; split; [exact A|]; rewrite <- Hn; exact B].
  destruct Hn as (E1 & E2 & E3). cbn [app]. rewrite E1 in B.
  assert (HN : ttime (ev_tag v) <> NEVER) by (unfold NEVER, LLONG_MIN; lia). specialize (B HN). split; [constructor; assumption|].
  intros HL u [<-|Hu]; [apply E3, HL|]. specialize (B u Hu). specialize (E3 HL). destruct Hs as (Hpos & _). lia.
Qed.

(** ** C23: at most one event per action and tag *)
Record uinv (e : env) : Prop := mkU {
  u_nd : NoDup (keys (e_q e));
  u_fut : future_queue e;
  u_last : forall tr, spaced (e_tr e tr) -> last_ok (e_tr e tr) /\
     forall t, In (Some tr, t) (keys (e_q e)) -> ttime (tg_last (e_tr e tr)) <> NEVER /\ ttime t <= ttime (tg_last (e_tr e tr))
}.

Lemma nodup_map_filter {A B} (f : A -> B) p l : NoDup (map f l) -> NoDup (map f (filter p l)).
Proof.
  induction l as [|x l IH]; cbn; intros H; [constructor|]. inversion H; subst. destruct (p x); cbn; [|auto]. constructor; [|auto].
  intros Hin. apply H2. apply in_map_iff in Hin. destruct Hin as (y & E & Hy). apply filter_In in Hy. rewrite <- E. apply in_map, Hy.
Qed.

Lemma uinv_insert e e' tr t tok : uinv e -> same_clock e e' -> e_q e' = mkEv t (Some tr) tok :: e_q e ->
  (forall u, u <> tr -> e_tr e' u = e_tr e u) -> (spaced (e_tr e' tr) -> spaced (e_tr e tr) /\ tg_last (e_tr e' tr) = t /\ 0 <= ttime t /\
     (ttime (tg_last (e_tr e tr)) <> NEVER -> ttime (tg_last (e_tr e tr)) <= ttime t)) ->
  tag_lt (e_cur e) t -> ~ In (Some tr, t) (keys (e_q e)) -> uinv e'.
Proof.
  intros I (C1 & _) Hq Hu Hs Ht Hn. constructor.
  - rewrite Hq. cbn [keys map key ev_trig ev_tag]. constructor; [exact Hn|apply I].
  - intros v. rewrite Hq, C1. intros [<-|Hv]; [exact Ht|]. apply (u_fut _ I), Hv.
  - intros u Hsp. destruct (Nat.eq_dec u tr) as [->|Hne].
    + destruct (Hs Hsp) as (Hs0 & El & H0 & Hl). rewrite El. split; [right; rewrite El; exact H0|]. intros x. rewrite Hq. cbn [keys map key ev_trig ev_tag].
      split; [unfold NEVER, LLONG_MIN; lia|]. destruct H as [H|H]; [injection H as <-; lia|].
      destruct (u_last _ I tr Hs0) as (_ & K). destruct (K x H) as (K1 & K2). specialize (Hl K1). lia.
    + rewrite (Hu u Hne) in *. destruct (u_last _ I u Hsp) as (K0 & K). split; [exact K0|]. intros x. rewrite Hq. cbn [keys map key ev_trig ev_tag].
      intros [H|H]; [injection H as -> ->; congruence|]. apply K, H.
Qed.
Lemma uinv_keys e e' : uinv e -> same_clock e e' -> keys (e_q e') = keys (e_q e) -> e_tr e' = e_tr e -> uinv e'.
Proof.
  intros I (C1 & _) Hk Ht. constructor.
  - rewrite Hk. apply I.
  - intros v Hv. rewrite C1. apply (in_map key) in Hv. change (map key (e_q e')) with (keys (e_q e')) in Hv. rewrite Hk in Hv.
    apply in_map_iff in Hv. destruct Hv as (w & Ew & Hw). unfold key in Ew. injection Ew as _ <-. apply (u_fut _ I), Hw.
  - intros tr. rewrite Hk, Ht. apply (u_last _ I).
Qed.

Lemma unique_step nd e o e' h : uinv e -> unique_op nd e o -> sstep nd e o = Ok (e', h) -> uinv e'.
Proof.
  intros I Hop Hs. destruct o as [now tr extra tok|tr t tok|t|t]; cbn [sstep unique_op] in *.
  - destruct Hop as (Hok & Hcur & Hnow & Hph & Htm). pose proof (sched_effect _ _ _ _ _ _ _ _ Hs Hok) as Heff.
    apply sched_call in Hs. destruct Hs as (Hc & [A B|v A _ _ _ B|t A B D F G J|b A B D F]).
    + eapply uinv_keys; [exact I|exact Hc|rewrite A; reflexivity|exact B].
    + eapply uinv_keys; [exact I|exact Hc|rewrite A; apply set_ev_tok_keys|exact B].
    + eapply uinv_insert; [exact I|exact Hc|exact A| | |eapply pile_after; eassumption|apply (first_free_spec _ _ _ _ _ J)].
      * intros u Hu. rewrite B. apply with_last_other, Hu.
      * rewrite B, with_last_same. unfold spaced. cbn [tg_period tg_timer]. lia.
    + assert (Hlt : tag_lt (e_cur e) (settle nd e b)).
      { destruct F as [(-> & _)|(-> & F & _)]; [eapply settle_after; eassumption|eapply defer_after; eassumption]. }
      assert (Hsp : spaced (e_tr e tr) -> ttime (tg_last (e_tr e tr)) <> NEVER -> ttime (tg_last (e_tr e tr)) + tg_period (e_tr e tr) <= ttime (settle nd e b)).
      { intros Hsp HN. pose proof (settle_time nd e b) as Hst. destruct F as [(_ & Hne & _)|(-> & _)]; [|cbn [ttime] in Hst; exact Hst].
        destruct (Z_le_gt_dec (ttime (tg_last (e_tr e tr)) + tg_period (e_tr e tr)) (ttime b)); [lia|]. exfalso. apply Hne. split; [exact Hsp|]. split; [exact HN|lia]. }
      eapply uinv_insert; [exact I|exact Hc|exact A| | |exact Hlt|].
      * intros u Hu. rewrite B. apply with_last_other, Hu.
      * intros Hs. rewrite B, with_last_same in Hs |- *. unfold spaced in Hs. cbn [tg_period tg_timer tg_last] in *.
        split; [exact Hs|]. split; [reflexivity|]. split; [unfold tag_lt in Hlt; lia|]. intros HN. specialize (Hsp Hs HN). destruct Hs. lia.
      * intros Hin. destruct (Z_le_gt_dec (tg_period (e_tr e tr)) 0) as [Hp|Hp].
        -- destruct F as [(Eb & _ & Hn)|(_ & ((F & _) & _) & _)]; [|lia]. specialize (Hn Hp). apply Hn. rewrite <- (settle_id nd e b) at 1; [exact Hin|].
           subst b. destruct (tg_phys (e_tr e tr)) eqn:Eph; [|apply base_logical; assumption]. left. unfold base. rewrite Eph. apply Hph. reflexivity.
        -- destruct (tg_timer (e_tr e tr)) eqn:Etm.
           ++ apply (Htm ltac:(lia) eq_refl _ Hin).
           ++ assert (Hs : spaced (e_tr e tr)) by (split; [lia|exact Etm]). destruct (u_last _ I tr Hs) as (_ & K). destruct (K _ Hin) as (K1 & K2).
              specialize (Hsp Hs K1). lia.
  - destruct Hop as (Ht & Hm & Hp & Hlt & Hfree). apply at_call in Hs. destruct Hs as (Hc & Htr & [A|v A|t2 A B D]).
    + eapply uinv_keys; [exact I|exact Hc|rewrite A; reflexivity|exact Htr].
    + eapply uinv_keys; [exact I|exact Hc|rewrite A; apply set_ev_tok_keys|exact Htr].
    + assert (Eb : bump t = mkTag (ttime t) (tmicro t + 1)).
      { unfold bump. rewrite Z.mod_small by (tag_consts; unfold two32; lia). reflexivity. }
      eapply uinv_insert; [exact I|exact Hc|exact A| | | |].
      * intros u _. rewrite Htr. reflexivity.
      * rewrite Htr. intros (Q & _). lia.
      * destruct D as [(-> & _)|(-> & _)]; [exact Hlt|]. rewrite Eb. unfold tag_lt in *. cbn. lia.
      * destruct D as [(-> & D)|(-> & D & _)]; [exact D|]. rewrite Eb. apply Hfree, D.
  - injection Hs as <- <-. destruct Hop as (_ & Hlt & _ & Hle). constructor; cbn [with_q with_cur e_q e_cur e_tr].
    + apply nodup_map_filter, I.
    + intros v Hv. cbn [with_q with_cur e_q e_cur] in *. apply filter_In in Hv. destruct Hv as (Hv & Hne). specialize (Hle v Hv).
      apply tag_le_lt_or_eq in Hle. destruct Hle as [Hle|Hle]; [exact Hle|]. rewrite <- Hle, (proj2 (tag_compare_eq t t) eq_refl) in Hne. discriminate.
    + intros tr Hsp. destruct (u_last _ I tr Hsp) as (K0 & K). split; [exact K0|]. intros x Hx. apply K.
      apply in_map_iff in Hx. destruct Hx as (v & Ev & Hv). apply filter_In in Hv. rewrite <- Ev. apply (in_map key), Hv.
  - injection Hs as <- <-. destruct (_ <? 0); [|exact I]. constructor; apply I.
Qed.
Lemma unique_all nd : forall os e e', uinv e -> unique_run nd e os -> srun nd e os = Ok e' -> uinv e'.
Proof.
  induction os as [|o r IH]; intros e e' I Hr H; cbn in H; [injection H as <-; exact I|]. destruct Hr as (Hop & Hr).
  bind_inv H. destruct x as [e1 h]. cbn [fst] in H. eapply IH; [|eapply Hr; reflexivity|exact H]. eapply unique_step; eassumption.
Qed.

(** ** Token references of pending events *)
Definition held_by (E : list nat) (q : list event) : Prop := exists L, Permutation E (queue_tokens q ++ L).
Definition tok_ok (s : tst) (C E : list nat) (tok : option nat) : Prop :=
  match tok with None => True | Some t => op_ok s C E (OHold t) end.
Definition tinv_q (C : list nat) (e : env) : Prop := exists E, tinv (e_tok e) C E /\ held_by E (e_q e).
Definition oplus (o : option nat) (E : list nat) : list nat := match o with Some t => t :: E | None => E end.

Lemma hold_ok s C E tok : tinv s C E -> tok_ok s C E tok -> exists s', hold_opt s tok = Ok s' /\ tinv s' C (oplus tok E).
Proof.
  intros I H. destruct tok as [t|]; [|exists s; auto]. destruct (step_hold s C E t I H) as (s' & A & B). exists s'. cbn [top_step] in A. auto.
Qed.
Lemma release_ok e C E o : tinv (e_tok e) C E -> (forall t, o = Some t -> In t E) ->
  exists s', release e o = Ok (with_tok e s') /\ tinv s' C (match o with Some t => remove1 t E | None => E end).
Proof.
  intros I H. unfold release. destruct o as [t|].
  - destruct (step_done (e_tok e) C E t I (H t eq_refl)) as (s' & A & B). cbn [top_step] in A. bind_inv A. injection A as <-. cbn [bind]. eauto.
  - cbn [done_using bind fst]. exists (e_tok e). auto.
Qed.
Lemma remove1_head t E : remove1 t (t :: E) = E.
Proof. cbn. rewrite Nat.eqb_refl. reflexivity. Qed.
Lemma remove1_perm t E : In t E -> Permutation E (t :: remove1 t E).
Proof.
  induction E as [|x r IH]; intros H; [destruct H|]. cbn [remove1]. destruct (Nat.eqb_spec x t) as [->|Hx]; [reflexivity|].
  destruct H as [->|H]; [congruence|]. rewrite (IH H) at 1. apply perm_swap.
Qed.
Lemma release_new e C E tok : tinv (e_tok e) C (oplus tok E) -> exists s', release e tok = Ok (with_tok e s') /\ tinv s' C E.
Proof.
  intros I. destruct (release_ok e C _ tok I) as (s' & A & B).
  - intros t ->. left. reflexivity.
  - exists s'. split; [exact A|]. destruct tok as [t|]; [|exact B]. cbn [oplus] in B. rewrite remove1_head in B. exact B.
Qed.
Lemma held_keep E q o : held_by E q -> held_by (oplus o E) q.
Proof.
  intros (L & P). destruct o as [t|]; [|exists L; exact P]. exists (t :: L). cbn [oplus]. rewrite P. apply Permutation_middle.
Qed.
Lemma held_add E q t tr o : held_by E q -> held_by (oplus o E) (mkEv t tr o :: q).
Proof.
  intros (L & P). exists L. unfold queue_tokens. cbn [flat_map ev_tok]. destruct o as [u|]; [|exact P]. cbn [oplus app]. apply perm_skip, P.
Qed.
Lemma held_in E q v t : held_by E q -> In v q -> ev_tok v = Some t -> In t E.
Proof.
  intros (L & P) Hv Ht. apply (Permutation_in t (Permutation_sym P)). apply in_or_app. left. apply in_flat_map. exists v. rewrite Ht. split; [exact Hv|left; reflexivity].
Qed.
Lemma queue_tokens_app a b : queue_tokens (a ++ b) = queue_tokens a ++ queue_tokens b.
Proof. apply flat_map_app. Qed.

(** lf_replace_token on a pending event. *)
Lemma replace_tok_ok C e E tr t tok v : tinv (e_tok e) C (oplus tok E) -> held_by E (e_q e) -> find_ev (e_q e) (Some tr) t = Some v ->
  exists e', replace_ev_token e v (Some tr) t tok = Ok e' /\ tinv_q C e'.
Proof.
  intros I Hq Hf. unfold replace_ev_token. pose proof (find_ev_some _ _ _ _ Hf) as (Hv & Hk).
  destruct (set_ev_tok_spec _ _ _ tok _ Hf) as (a & b & Ea & Eb).
  destruct (opt_eqb (ev_tok v) tok) eqn:Eo.
  - apply opt_eqb_spec in Eo. cbn [bind]. eexists. split; [reflexivity|]. exists (oplus tok E). split; [exact I|]. cbn [with_q e_q]. rewrite Eb.
    assert (Hsame : queue_tokens (a ++ mkEv t (Some tr) tok :: b) = queue_tokens (e_q e)).
    { rewrite Ea, !queue_tokens_app. f_equal. unfold queue_tokens; cbn [flat_map ev_tok]. rewrite Eo. reflexivity. }
    destruct (held_keep E (e_q e) tok Hq) as (L & P). exists L. rewrite Hsame. exact P.
  - destruct (release_ok e C _ (ev_tok v) I) as (s' & A & B).
    { intros u Hu. destruct tok as [w|]; [right|]; eapply held_in; eassumption. }
    rewrite A. cbn [bind]. eexists. split; [reflexivity|].
    exists (match ev_tok v with Some u => remove1 u (oplus tok E) | None => oplus tok E end). split; [exact B|].
    cbn [with_q with_tok e_q]. rewrite Eb.
    destruct Hq as (L & P). rewrite Ea, queue_tokens_app in P. unfold queue_tokens in P at 2. cbn [flat_map] in P. change (flat_map _ b) with (queue_tokens b) in P.
    exists L. rewrite queue_tokens_app. unfold queue_tokens at 2. cbn [flat_map ev_tok]. change (flat_map _ b) with (queue_tokens b).
    destruct (ev_tok v) as [u|] eqn:Eu.
    + assert (Hin : In u (oplus tok E)) by (destruct tok as [w|]; [right|]; (apply (Permutation_in u (Permutation_sym P)); apply in_or_app; left; apply in_or_app; right; left; reflexivity)).
      apply remove1_perm in Hin. apply (Permutation_cons_inv (a := u)). rewrite <- Hin. destruct tok as [w|]; cbn [oplus app].
      * rewrite P. rewrite <- !app_assoc. cbn [app]. rewrite <- !Permutation_middle. apply perm_swap.
      * rewrite P. rewrite <- !app_assoc. cbn [app]. symmetry. apply Permutation_middle.
    + destruct tok as [w|]; cbn [oplus app] in *; [|exact P]. rewrite P. rewrite <- !app_assoc. cbn [app]. apply Permutation_middle.
Qed.

(** Arithmetic of the call is in range. *)
Definition sched_range (now : Z) (e : env) (tr : nat) (extra : Z) : Prop :=
  let g := e_tr e tr in
  in_int64 (total_delay g extra) /\ (tg_phys g = true -> in_int64 (now + total_delay g extra)) /\
  (spaced g -> ttime (tg_last g) <> NEVER -> in_int64 (ttime (tg_last g) + tg_period g)) /\
  e_handle e < INT_MAX /\ tag_ok (e_cur e) /\ Z.of_nat (length (e_q e)) <= UINT_MAX.

Lemma c_add_ok a b : in_int64 (a + b) -> c_add64 a b = Ok (a + b).
Proof. intros H. unfold c_add64. apply in_int64b_spec in H. rewrite H. reflexivity. Qed.

Lemma finish_ok C nd e E tr b tok : tinv (e_tok e) C (oplus tok E) -> held_by E (e_q e) -> e_handle e < INT_MAX ->
  exists e' h, sched_finish nd e tr b tok = Ok (e', h) /\ tinv_q C e'.
Proof.
  intros I Hq Hh. unfold sched_finish. cbv zeta. destruct (after_stop e _).
  - destruct (release_new e C E tok I) as (s' & A & B). rewrite A. cbn [bind]. eexists _, _. split; [reflexivity|]. exists E. split; [exact B|exact Hq].
  - unfold take_handle. change (e_handle (insert_ev _ _)) with (e_handle e). destruct (e_handle e <? INT_MAX) eqn:El; [|lia].
    eexists _, _. split; [reflexivity|]. exists (oplus tok E). split; [exact I|]. apply held_add, Hq.
Qed.

Lemma sched_defined C nd now e E tr extra tok : tinv (e_tok e) C E -> held_by E (e_q e) -> tok_ok (e_tok e) C E tok ->
  tag_le (e_cur e) (e_stop e) -> sched_range now e tr extra ->
  exists e' h, sched nd now e (Some tr) extra tok = Ok (e', h) /\ tinv_q C e'.
Proof.
  intros I Hq Ht Hst (R1 & R2 & R3 & R4 & R5 & R6). unfold sched. apply after_stop_spec in Hst. rewrite Hst.
  destruct (hold_ok _ _ _ _ I Ht) as (s1 & -> & I1). cbn [bind]. cbv zeta.
  change (e_tr (with_tok e s1)) with (e_tr e). change (e_q (with_tok e s1)) with (e_q e). change (e_cur (with_tok e s1)) with (e_cur e).
  set (g := e_tr e tr) in *.
  assert (Ed : (if tg_timer g then Ok (if extra <? 0 then 0 else extra) else c_add64 (if extra <? 0 then 0 else extra) (tg_offset g)) = Ok (total_delay g extra)).
  { unfold total_delay in *. replace (if extra <? 0 then 0 else extra) with (Z.max 0 extra) by (case_if; lia).
    destruct (tg_timer g); [rewrite Z.add_0_r; reflexivity|]. apply c_add_ok, R1. }
  rewrite Ed. cbn [bind].
  assert (Eb : (if tg_phys g then do! x <- c_add64 now (total_delay g extra); Ok (mkTag x 0)
                else Ok (clamp_now nd (with_tok e s1) (delay_tag (e_cur e) (total_delay g extra)))) = Ok (base nd now e g extra)).
  { unfold base. destruct (tg_phys g); [|reflexivity]. rewrite c_add_ok by (apply R2; reflexivity). reflexivity. }
  rewrite Eb. cbn [bind]. set (b := base nd now e g extra).
  assert (Fin : forall x, exists e' h, sched_finish nd (with_tok e s1) tr x tok = Ok (e', h) /\ tinv_q C e').
  { intros x. apply (finish_ok C nd (with_tok e s1) E); assumption. }
  destruct (tg_period g <=? 0) eqn:Ep.
  - destruct (find_ev (e_q e) (Some tr) b) as [v|] eqn:Ef; [|apply Fin].
    assert (Hm : 0 <= tmicro b <= UINT_MAX).
    { unfold b, base. destruct (tg_phys g); [cbn; unfold UINT_MAX; lia|].
      assert (tmicro (clamp_now nd e (delay_tag (e_cur e) (total_delay g extra))) = tmicro (delay_tag (e_cur e) (total_delay g extra))) as ->
        by (unfold clamp_now; destruct (_ && _); reflexivity).
      destruct (delay_tag_ok _ _ R5 R1) as (_ & K). exact K. }
    pose proof (first_free_total (e_q e) tr b Hm R6) as Hff. destruct (first_free (length (e_q e)) (e_q e) tr b) as [t2|]; [|congruence].
    cbn [bind]. change (after_stop (with_tok e s1) t2) with (after_stop e t2). destruct (after_stop e t2).
    + eexists _, _. split; [reflexivity|]. exists (oplus tok E). split; [exact I1|]. apply held_keep, Hq.
    + eexists _, _. split; [reflexivity|]. exists (oplus tok E). split; [exact I1|]. apply held_add, Hq.
  - destruct (negb (tg_timer g) && negb (ttime (tg_last g) =? NEVER)) eqn:Et; [|apply Fin].
    rewrite c_add_ok by (apply R3; [split; [lia|destruct (tg_timer g); [discriminate|reflexivity]]|lia]). cbn [bind].
    destruct (ttime b <? ttime (tg_last g) + tg_period g); [|apply Fin].
    destruct (tg_policy g); [apply Fin| |].
    + destruct (release_new (with_tok e s1) C E tok I1) as (s' & A & B). rewrite A. cbn [bind]. eexists _, _. split; [reflexivity|]. exists E. split; [exact B|exact Hq].
    + destruct (find_ev (e_q e) (Some tr) (tg_last g)) as [v|] eqn:Ef; [|apply Fin].
      destruct (replace_tok_ok C (with_tok e s1) E tr (tg_last g) tok v I1 Hq Ef) as (e' & A & B). rewrite A. cbn [bind]. eauto.
Qed.

Lemma sched_at_defined C e E tr t tok : tinv (e_tok e) C E -> held_by E (e_q e) -> tok_ok (e_tok e) C E tok -> e_handle e < INT_MAX ->
  exists e' h, sched_at e tr t tok = Ok (e', h) /\ tinv_q C e'.
Proof.
  intros I Hq Ht Hh. unfold sched_at. destruct (_ && _).
  { eexists _, _. split; [reflexivity|]. exists E. auto. }
  destruct (hold_ok _ _ _ _ I Ht) as (s1 & -> & I1). cbn [bind]. cbv zeta.
  change (e_tr (with_tok e s1)) with (e_tr e). change (e_q (with_tok e s1)) with (e_q e).
  assert (Ins : forall x, exists e' h, take_handle (insert_ev (with_tok e s1) (mkEv x (Some tr) tok)) = Ok (e', h) /\ tinv_q C e').
  { intros x. unfold take_handle. change (e_handle (insert_ev _ _)) with (e_handle e). destruct (e_handle e <? INT_MAX) eqn:El; [|lia].
    eexists _, _. split; [reflexivity|]. exists (oplus tok E). split; [exact I1|]. apply held_add, Hq. }
  assert (Rel : exists s', release (with_tok e s1) tok = Ok (with_tok (with_tok e s1) s') /\ tinv s' C E) by (apply release_new; exact I1).
  destruct (after_stop (with_tok e s1) t).
  { destruct Rel as (s' & A & B). rewrite A. cbn [bind]. eexists _, _. split; [reflexivity|]. exists E. split; [exact B|exact Hq]. }
  destruct (find_ev (e_q e) (Some tr) t) as [v|] eqn:Ef; [|apply Ins].
  destruct (tg_policy (e_tr e tr)).
  - destruct (after_stop (with_tok e s1) (bump t)); [|apply Ins]. eexists _, _. split; [reflexivity|]. exists (oplus tok E). split; [exact I1|]. apply held_keep, Hq.
  - destruct (opt_eqb (ev_tok v) tok); cbn [bind].
    + eexists _, _. split; [reflexivity|]. exists (oplus tok E). split; [exact I1|]. apply held_keep, Hq.
    + destruct Rel as (s' & A & B). rewrite A. cbn [bind]. eexists _, _. split; [reflexivity|]. exists E. split; [exact B|exact Hq].
  - destruct (replace_tok_ok C (with_tok e s1) E tr t tok v I1 Hq Ef) as (e' & A & B). rewrite A. cbn [bind]. eauto.
Qed.

(** ** Boolean checkers, for the examples *)
Definition tag_ltb (a b : tag) : bool := tag_compare a b =? -1.
Lemma tag_ltb_spec a b : tag_ltb a b = true -> tag_lt a b.
Proof. unfold tag_ltb. rewrite Z.eqb_eq, tag_compare_lt. auto. Qed.
Definition spacing_opb (tr : nat) (e : env) (o : sop) : bool :=
  match o with
  | Sched now t extra tok => negb (Nat.eqb t tr) || ((0 <=? now) && (0 <=? ttime (e_cur e)) && (0 <=? tg_offset (e_tr e tr)))
  | At t _ _ => negb (Nat.eqb t tr)
  | Advance t => tag_ltb (e_cur e) t
  | Stop t => true
  end.
Fixpoint spacing_runb (nd : bool) (tr : nat) (e : env) (os : list sop) : bool :=
  match os with
  | [] => true
  | o :: r => spacing_opb tr e o && match sstep nd e o with Ok (e', _) => spacing_runb nd tr e' r | UB => true end
  end.
Lemma spacing_runb_ok nd tr : forall os e, spacing_runb nd tr e os = true -> spacing_run nd tr e os.
Proof.
  induction os as [|o r IH]; intros e H; [exact I|]. cbn [spacing_runb] in H. apply andb_true_iff in H. destruct H as (H1 & H2). split.
  - destruct o; cbn [spacing_op spacing_opb] in *; [|apply negb_true_iff, Nat.eqb_neq in H1; exact H1|apply tag_ltb_spec, H1|exact I].
    intros ->. rewrite Nat.eqb_refl in H1. cbn in H1. lia.
  - intros e' h E. rewrite E in H2. apply IH, H2.
Qed.

Definition in_keysb (k : option nat * tag) (q : list event) : bool := existsb (same_ev (fst k) (snd k)) q.
Lemma in_keysb_spec k q : in_keysb k q = true <-> In k (keys q).
Proof.
  unfold in_keysb, keys. rewrite existsb_exists, in_map_iff. split; intros (v & A & B); exists v.
  - apply same_ev_spec in B. rewrite B. destruct k; auto.
  - rewrite same_ev_spec. destruct k; auto.
Qed.
Definition sched_okb (nd : bool) (now : Z) (e : env) (tr : nat) (extra : Z) : bool :=
  let g := e_tr e tr in
  tag_okb (e_cur e) && (NEVER <? ttime (e_cur e)) && (ttime (e_cur e) <? FOREVER) && forallb (fun v => tag_ltb (e_cur e) (ev_tag v)) (e_q e) &&
  (tg_timer g || (0 <=? tg_offset g)) &&
  (if tg_phys g then ttime (e_cur e) <? now + total_delay g extra else tmicro (e_cur e) + Z.of_nat (length (e_q e)) + 1 <=? UINT_MAX).
Lemma tag_okb_spec t : tag_okb t = true -> tag_ok t.
Proof. unfold tag_okb, tag_ok, in_int64b, in_int64, in_uint32b, in_uint32. lia. Qed.
Lemma sched_okb_ok nd now e tr extra : sched_okb nd now e tr extra = true -> sched_ok nd now e tr extra.
Proof.
  unfold sched_okb, sched_ok. cbv zeta. rewrite !andb_true_iff. intros (((((A & B) & C) & D) & F) & G). apply tag_okb_spec in A. split; [exact A|]. split; [lia|].
  split; [intros v Hv; rewrite forallb_forall in D; apply tag_ltb_spec, D, Hv|]. split; [intros Ht; rewrite Ht in F; cbn in F; lia|]. destruct (tg_phys (e_tr e tr)); lia.
Qed.
Definition unique_opb (nd : bool) (e : env) (o : sop) : bool :=
  match o with
  | Sched now tr extra tok =>
      sched_okb nd now e tr extra && (0 <=? ttime (e_cur e)) && (0 <=? now) &&
      (negb (0 <? tg_period (e_tr e tr)) || negb (tg_timer (e_tr e tr)) || forallb (fun v => negb (opt_eqb (ev_trig v) (Some tr))) (e_q e))
  | At tr t tok =>
      tag_okb t && (tmicro t <? UINT_MAX) && (tg_period (e_tr e tr) <=? 0) && tag_ltb (e_cur e) t &&
      (negb (in_keysb (Some tr, t) (e_q e)) || negb (in_keysb (Some tr, mkTag (ttime t) (tmicro t + 1)) (e_q e)))
  | Advance t => tag_okb t && tag_ltb (e_cur e) t && (ttime t <? FOREVER) && forallb (fun v => tag_compare t (ev_tag v) <=? 0) (e_q e)
  | Stop t => true
  end.
Fixpoint unique_runb (nd : bool) (e : env) (os : list sop) : bool :=
  match os with
  | [] => true
  | o :: r => unique_opb nd e o && match sstep nd e o with Ok (e', _) => unique_runb nd e' r | UB => true end
  end.
Lemma unique_runb_ok nd : forall os e, unique_runb nd e os = true -> unique_run nd e os.
Proof.
  induction os as [|o r IH]; intros e H; [exact I|]. cbn [unique_runb] in H. apply andb_true_iff in H. destruct H as (H1 & H2). split.
  - destruct o; cbn [unique_op unique_opb] in *; [| | |exact I]; rewrite ?andb_true_iff in H1.
    + destruct H1 as (((A & B) & C) & D). pose proof A as A0. apply sched_okb_ok in A. cbv zeta. split; [exact A|]. split; [lia|]. split; [lia|]. split.
      * intros Hp. unfold sched_okb in A0. cbv zeta in A0. rewrite Hp in A0. lia.
      * intros Hp Ht t Hin. apply in_map_iff in Hin. destruct Hin as (v & Ek & Hv). rewrite Ht in D. replace (0 <? tg_period (e_tr e tr)) with true in D by lia. cbn in D.
        rewrite forallb_forall in D. specialize (D v Hv). unfold key in Ek. injection Ek as E1 _. rewrite E1, (proj2 (opt_eqb_spec _ _) eq_refl) in D. discriminate.
    + destruct H1 as ((((A & B) & C) & D) & F). apply tag_okb_spec in A. apply tag_ltb_spec in D. split; [exact A|]. split; [lia|]. split; [lia|]. split; [exact D|].
      intros K1 K2. apply in_keysb_spec in K1, K2. rewrite K1, K2 in F. discriminate.
    + destruct H1 as (((A & B) & C) & D). apply tag_okb_spec in A. apply tag_ltb_spec in B. split; [exact A|]. split; [exact B|]. split; [lia|].
      intros v Hv. rewrite forallb_forall in D. specialize (D v Hv). apply tag_compare_le. lia.
  - intros e' h E. rewrite E in H2. apply IH, H2.
Qed.
