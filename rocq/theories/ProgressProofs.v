(** Proof of progress (C73). *)
From Verif Require Import Base Tag TagSpec TagProofs Pqueue PqueueProofs RtiDelays RtiDelaysSpec RtiDelaysProofs RtiDelaysProps Rti RtiSpec RtiProofs Federation FederationSpec FederationProofs Progress ProgressSpec.
From Coq Require Import Arith.
Open Scope Z_scope.

(** ** The table does not depend on how the connected nodes are presented *)
Section Ext.
Variable tp : topo.
Variables c1 c2 : nat -> bool.
Hypothesis Hc : forall i, c1 i = c2 i.
Lemma relax_ext rec1 rec2 stop far : (forall u s, rec1 u s = rec2 u s) -> forall l s, relax_loop rec1 stop far l s = relax_loop rec2 stop far l s.
Proof.
  intros Hr. induction l as [|(u & d) l IH]; intros s; [reflexivity|]. cbn [relax_loop]. destruct (_ <? 0); [|apply IH]. destruct (negb _); [|apply IH]. rewrite Hr. destruct (rec2 u _); [apply IH|reflexivity].
Qed.
Lemma update_ext fuel : forall stop inter s, update_delays fuel tp c1 stop inter s = update_delays fuel tp c2 stop inter s.
Proof.
  induction fuel as [|fuel IH]; intros stop inter s; [reflexivity|]. cbn [update_delays]. rewrite Hc. destruct (c2 _); [|reflexivity]. apply relax_ext. intros u s'. apply IH.
Qed.
Lemma compute_ext e : compute_delays tp c1 e = compute_delays tp c2 e.
Proof. unfold compute_delays. rewrite update_ext. reflexivity. Qed.
End Ext.

Lemma zero_path ds : path_delay ds = ZERO_TAG -> forall d, In d ds -> d < 0.
Proof.
  unfold path_delay, ZERO_TAG. induction ds as [|d ds IH]; intros H x Hx; [destruct Hx|]. injection H as H1 H2. cbn [path_time path_micro] in *. pose proof (path_time_nonneg ds). pose proof (path_micro_bound ds).
  assert (E1 : path_time ds = 0) by lia. rewrite E1 in *. destruct (d =? 0) eqn:C; cbn [andb Z.eqb] in H2; [lia|]. destruct Hx as [<-|Hx]; [lia|]. apply IH; [f_equal; lia|exact Hx].
Qed.
Lemma path_zero ds : (forall d, In d ds -> d < 0) -> path_delay ds = ZERO_TAG.
Proof.
  unfold path_delay, ZERO_TAG. induction ds as [|d ds IH]; intros H; [reflexivity|]. cbn [path_time path_micro]. specialize (IH (fun x Hx => H x (or_intror Hx))). injection IH as E1 E2.
  pose proof (H d (or_introl eq_refl)). rewrite E1, E2. replace (d =? 0) with false by lia. cbn [andb]. f_equal. lia.
Qed.
Lemma path_trans tp c a ds1 b ds2 d : upstream_path tp c a ds1 b -> upstream_path tp c b ds2 d -> upstream_path tp c a (ds1 ++ ds2) d.
Proof. intros P Q. induction P as [k d1 e H1 H2|k d1 v ds e H1 H2 P IH]; cbn [app]; [eapply path_step; eassumption|eapply path_step; [exact H1|exact H2|apply IH, Q]]. Qed.

(** The tags in the log that are grants: the last one. *)
Definition last_tag (l : list rmsg) : tag := fold_left (fun a m => match m with MTag t => t | _ => a end) l NEVER_TAG.
Lemma last_tag_snoc l m : last_tag (l ++ [m]) = match m with MTag t => t | _ => last_tag l end.
Proof. unfold last_tag. rewrite fold_left_app. reflexivity. Qed.

(** Adding a delay never lowers a tag, and raises it unless the delay is zero. *)
Lemma tag_add_ge a D : tag_ok a -> 0 <= ttime a -> delay_ok D -> tag_le a (tag_add a D).
Proof.
  intros Ha H0 HD. destruct (tag_add_cases a D Ha HD) as [(K & _)|[(_ & _ & ->)|[(_ & _ & _ & ->)|(_ & _ & _ & ->)]]].
  - exfalso. tag_consts. lia.
  - apply tag_forever_greatest, Ha.
  - apply tag_forever_greatest, Ha.
  - destruct HD as (HD1 & HD2). destruct Ha as (Ha1 & Ha2). destruct (Z.ltb_spec 0 (ttime D)); tag_consts; lia.
Qed.
Lemma tag_add_gt a D : tag_ok a -> 0 <= ttime a -> tag_lt a FOREVER_TAG -> delay_ok D -> D <> ZERO_TAG -> tag_lt a (tag_add a D).
Proof.
  intros Ha H0 Hf HD Hz. destruct (tag_add_cases a D Ha HD) as [(K & _)|[(_ & _ & ->)|[(_ & _ & _ & ->)|(_ & _ & _ & ->)]]].
  - exfalso. tag_consts. lia.
  - exact Hf.
  - exact Hf.
  - destruct HD as ((HD1 & HD3) & HD2). assert (Hn : ttime D <> 0 \/ tmicro D <> 0).
    { destruct (Z.eq_dec (ttime D) 0); [|now left]. destruct (Z.eq_dec (tmicro D) 0); [|now right]. exfalso. apply Hz. apply tag_eq; assumption. }
    destruct Ha as (Ha1 & Ha2). destruct (Z.ltb_spec 0 (ttime D)); unfold in_uint32 in *; tg; lia.
Qed.
Lemma tag_add_forever D : delay_ok D -> tag_add FOREVER_TAG D = FOREVER_TAG.
Proof.
  intros HD. assert (Hf : tag_ok FOREVER_TAG) by (tag_consts; lia). destruct (tag_add_cases FOREVER_TAG D Hf HD) as [(K & _)|[(_ & _ & ->)|[(_ & _ & _ & ->)|(_ & K & _)]]]; try reflexivity.
  - exfalso. cbn in K. tag_consts. lia.
  - exfalso. destruct HD as (_ & HD). cbn [ttime FOREVER_TAG] in K. lia.
Qed.

Section Progress.
Variable tp : topo.
Variable start : Z.
Hypothesis Htp : topo_ok tp.
Hypothesis Hrange : forall i, (tp_n tp <= i)%nat -> tp_up tp i = [].
Hypothesis Hz : no_zero_delay_cycle tp.
Hypothesis Hs : 0 <= start < FOREVER.
Hypothesis Hdown : down_ok tp.
Notation Inv := (Inv tp start).
Notation notify_if_safe := (notify_if_safe tp start (fun _ => true)).

(** ** What a grant depends on *)
Definition eff (n : rnode) : tag := if tag_eqb (r_next n) NEVER_TAG then mkTag start 0 else r_next n.
Definition computed (s : rti) (e : nat) : list (nat * tag) * bool :=
  match compute_delays tp (fun i => r_connected (s i)) e with Delays table zdc _ => (table, zdc) | _ => ([], false) end.
Definition table (s : rti) (e : nat) : list (nat * tag) := fst (match r_delays (s e) with Some c => c | None => computed s e end).
Definition free (s : rti) (e : nat) (t : tag) : Prop := forall k D, In (k, D) (table s e) -> tag_lt t (tag_add (eff (s k)) D).
Definition settled (s : rti) (e : nat) : Prop :=
  r_next (s e) <> NEVER_TAG /\
  (r_connected (s e) = true -> tag_lt (r_next (s e)) FOREVER_TAG -> free s e (r_next (s e)) -> tag_le (r_next (s e)) (r_granted (s e))).

(** What the search for grants and the sending of grants leave unchanged. *)
Definition log_ext (n n' : rnode) : Prop :=
  (exists l, r_sent n' = r_sent n ++ l /\ forall m, In m l -> exists t, m = MTag t) /\ (r_granted n = last_tag (r_sent n) -> r_granted n' = last_tag (r_sent n')).
Definition sim1 (s s' : rti) (i : nat) : Prop :=
  r_connected (s' i) = r_connected (s i) /\ eff (s' i) = eff (s i) /\ (r_next (s i) <> NEVER_TAG -> r_next (s' i) = r_next (s i)) /\
  table s' i = table s i /\ r_transit (s' i) = r_transit (s i) /\ r_completed (s' i) = r_completed (s i) /\ r_ptag (s' i) = r_ptag (s i) /\
  tag_le (r_granted (s i)) (r_granted (s' i)) /\ log_ext (s i) (s' i).
Definition sim (s s' : rti) : Prop := forall i, sim1 s s' i.

Lemma log_ext_refl n : log_ext n n.
Proof. split; [exists []; split; [symmetry; apply app_nil_r|intros m []]|auto]. Qed.
Lemma log_ext_same n n' : r_sent n' = r_sent n -> r_granted n' = r_granted n -> log_ext n n'.
Proof. intros E1 E2. split; [exists []; split; [rewrite E1; symmetry; apply app_nil_r|intros m []]|rewrite E1, E2; auto]. Qed.
Lemma sim_refl s : sim s s.
Proof. intros i. pose proof (log_ext_refl (s i)). pose proof (tag_le_refl (r_granted (s i))). unfold sim1. auto 12. Qed.
Lemma log_ext_trans n1 n2 n3 : log_ext n1 n2 -> log_ext n2 n3 -> log_ext n1 n3.
Proof.
  intros ((l & E & A) & G) ((l' & E' & A') & G'). split; [|auto]. exists (l ++ l'). split; [rewrite E', E, app_assoc; reflexivity|]. intros m Hm. apply in_app_or in Hm. destruct Hm; auto.
Qed.
Lemma sim_trans s1 s2 s3 : sim s1 s2 -> sim s2 s3 -> sim s1 s3.
Proof.
  intros A B i. destruct (A i) as (A1 & A2 & A3 & A4 & A5 & A6 & A7 & A8 & A9), (B i) as (B1 & B2 & B3 & B4 & B5 & B6 & B7 & B8 & B9).
  split; [congruence|]. split; [congruence|]. split; [intros N; rewrite B3, A3; auto; rewrite A3; auto|]. split; [congruence|]. split; [congruence|]. split; [congruence|]. split; [congruence|].
  split; [eapply tag_le_trans; eassumption|eapply log_ext_trans; eassumption].
Qed.

Lemma computed_ext s s' e : (forall i, r_connected (s' i) = r_connected (s i)) -> computed s' e = computed s e.
Proof. intros H. unfold computed. rewrite (compute_ext tp _ _ H). reflexivity. Qed.

(** A change of one record. *)
Lemma sim_on s e f : r_connected (f (s e)) = r_connected (s e) -> eff (f (s e)) = eff (s e) -> (r_next (s e) <> NEVER_TAG -> r_next (f (s e)) = r_next (s e)) ->
  (r_delays (f (s e)) = r_delays (s e) \/ (r_delays (s e) = None /\ r_delays (f (s e)) = Some (computed s e))) -> r_transit (f (s e)) = r_transit (s e) -> r_completed (f (s e)) = r_completed (s e) ->
  r_ptag (f (s e)) = r_ptag (s e) -> tag_le (r_granted (s e)) (r_granted (f (s e))) -> log_ext (s e) (f (s e)) -> sim s (on s e f).
Proof.
  intros H1 H2 H3 H4 H5 H6 H7 H8 H9. assert (C : forall i, r_connected (on s e f i) = r_connected (s i)) by (intros i; destruct (Nat.eq_dec e i) as [<-|n]; [rewrite on_same; exact H1|rewrite on_other by exact n; reflexivity]).
  assert (T : forall i, table (on s e f) i = table s i).
  { intros i. unfold table. destruct (Nat.eq_dec e i) as [<-|n]; [rewrite on_same|rewrite on_other by exact n].
    - destruct H4 as [->|(E & ->)]; [|rewrite E; reflexivity]. destruct (r_delays (s e)); [reflexivity|]. rewrite (computed_ext s _ e C). reflexivity.
    - destruct (r_delays (s i)); [reflexivity|]. rewrite (computed_ext s _ i C). reflexivity. }
  intros i. unfold sim1. rewrite T, C. destruct (Nat.eq_dec e i) as [<-|n]; [rewrite on_same|rewrite on_other by exact n].
  - auto 12.
  - pose proof (log_ext_refl (s i)). pose proof (tag_le_refl (r_granted (s i))). auto 12.
Qed.
Lemma sim_cache s e : r_delays (s e) = None -> sim s (on s e (set_delays (Some (computed s e)))).
Proof. intros E. apply sim_on; cbn; try reflexivity; [right; auto|apply tag_le_refl|apply log_ext_same; reflexivity]. Qed.
Lemma start_eff n : r_next n = NEVER_TAG -> eff (set_next (mkTag start 0) n) = eff n.
Proof.
  intros E. unfold eff. cbn [r_next set_next]. rewrite E. unfold tag_eqb. rewrite (proj2 (cmp_eq0 NEVER_TAG NEVER_TAG) eq_refl).
  destruct (_ =? 0); reflexivity.
Qed.
Lemma sim_start s k : r_next (s k) = NEVER_TAG -> sim s (on s k (set_next (mkTag start 0))).
Proof. intros E. apply sim_on; cbn; try reflexivity; [apply start_eff, E|intros N; contradiction|now left|apply tag_le_refl|apply log_ext_same; reflexivity]. Qed.

Definition simP (s0 s : rti) : Prop := sim s0 s.
Lemma simP_cache s0 s e : sim s0 s -> r_delays (s e) = None -> sim s0 (on s e (set_delays (Some (match compute_delays tp (fun i => r_connected (s i)) e with Delays t z _ => (t, z) | _ => ([], false) end)))).
Proof. intros H E. eapply sim_trans; [exact H|apply (sim_cache s e E)]. Qed.
Lemma simP_start s0 s k : sim s0 s -> r_next (s k) = NEVER_TAG -> sim s0 (on s k (set_next (mkTag start 0))).
Proof. intros H E. eapply sim_trans; [exact H|apply sim_start, E]. Qed.
Lemma sim_grant_search s e : sim s (fst (grant_if_safe tp start s e)).
Proof. apply (grant_if_safe_P tp start (sim s)); [apply simP_cache|apply simP_start|apply sim_refl]. Qed.
Lemma sim_eimt s e : sim s (fst (eimt tp start s e)).
Proof. apply (eimt_P tp start (sim s)); [apply simP_cache|apply simP_start|apply sim_refl]. Qed.
Lemma sim_strict s e : sim s (fst (eimt_strict tp start s e)).
Proof. apply (eimt_strict_P tp start (sim s)); [apply simP_cache|apply simP_start|apply sim_refl]. Qed.
Lemma sim_tag s e t : sim s (notify_tag (fun _ => true) s e t).
Proof.
  unfold notify_tag. destruct (_ || _ || _) eqn:C; [apply sim_refl|]. rewrite !orb_false_iff in C. destruct C as ((_ & C) & _). apply cmp_le0_false in C.
  apply sim_on; cbn; try reflexivity; [now left|apply tag_lt_le, C|]. split; [exists [MTag t]; split; [reflexivity|intros m [<-|[]]; eauto]|]. intros _. cbn [r_granted r_sent set_granted add_sent]. rewrite last_tag_snoc. reflexivity.
Qed.
(** What the coordinator's own steps need: no zero-delay cycles in the tables, no PTAGs. *)
Definition wk (s : rti) : Prop := forall e, (forall c, r_delays (s e) = Some c -> snd c = false) /\ tag_le NEVER_TAG (r_next (s e)) /\ r_ptag (s e) = NEVER_TAG.
Lemma wk_on s e f : wk s -> (forall c, r_delays (f (s e)) = Some c -> snd c = false) -> tag_le NEVER_TAG (r_next (f (s e))) -> r_ptag (f (s e)) = NEVER_TAG -> wk (on s e f).
Proof. intros H H1 H2 H3 i. destruct (Nat.eq_dec e i) as [<-|n]; [rewrite on_same; auto|rewrite on_other by exact n; apply H]. Qed.
Lemma wk_cache s e : wk s -> r_delays (s e) = None -> wk (on s e (set_delays (Some (match compute_delays tp (fun i => r_connected (s i)) e with Delays t z _ => (t, z) | _ => ([], false) end)))).
Proof. intros H _. apply wk_on; [exact H| |apply H|apply H]. cbn [r_delays set_delays]. intros c E. injection E as <-. apply (computed_ok tp Htp Hrange Hz s e). Qed.
Lemma wk_start s k : wk s -> r_next (s k) = NEVER_TAG -> wk (on s k (set_next (mkTag start 0))).
Proof. intros H _. apply wk_on; [exact H|apply H| |apply H]. cbn. unfold NEVER_TAG. tg. tag_consts. lia. Qed.
Lemma wk_tag s e t : wk s -> wk (notify_tag (fun _ => true) s e t).
Proof. intros H. unfold notify_tag. destruct (_ || _ || _); [exact H|]. apply wk_on; [exact H|apply H|apply H|apply H]. Qed.
Lemma grant_real s e : wk s -> forall t, snd (grant_if_safe tp start s e) <> Some (t, true).
Proof.
  intros H t. unfold grant_if_safe. destruct (_ && _); [discriminate|]. pose proof (eimt_P tp start wk wk_cache wk_start s e H) as K. destruct (eimt tp start s e) as [s1 t1]. cbn [fst] in K.
  pose proof (eimt_strict_P tp start wk wk_cache wk_start s1 e K) as K2. destruct (eimt_strict tp start s1 e) as [s2 t2]. cbn [fst] in K2. destruct (_ && _ && _ && _); [discriminate|]. destruct (_ =? 0); [|discriminate].
  pose proof (node_delays_P tp wk wk_cache s2 e K2) as K3. destruct (node_delays tp s2 e) as [s3 c] eqn:E3. cbn [fst] in K3.
  assert (Z : snd c = false) by (apply (K3 e); unfold node_delays in E3; destruct (r_delays (s2 e)) eqn:D; injection E3 as <- <-; [exact D|rewrite on_same; reflexivity]).
  rewrite Z. cbn [andb]. discriminate.
Qed.
Lemma wk_safe s e : wk s -> wk (notify_if_safe s e).
Proof.
  intros H. unfold Rti.notify_if_safe. pose proof (grant_if_safe_P tp start wk wk_cache wk_start s e H) as K. pose proof (grant_real s e H) as G. destruct (grant_if_safe tp start s e) as [s1 g]. cbn [fst snd] in *.
  destruct g as [(t & p)|]; [|exact K]. destruct (_ =? 0); [exact K|]. destruct p; [exfalso; apply (G t); reflexivity|apply wk_tag, K].
Qed.
Lemma inv_wk fs s : Inv fs s -> (forall i, r_ptag (s i) = NEVER_TAG) -> wk s.
Proof.
  intros H Hp e. split; [intros c E; apply (i_delays _ _ _ _ H e c E)|]. split; [|apply Hp]. destruct (l_next _ _ _ _ _ (i_local _ _ _ _ H e)) as [->|K]; [apply tag_le_refl|]. apply tag_never_least, (FederationProofs.good_ok tp start Hs), K.
Qed.
Lemma sim_safe s e : wk s -> sim s (notify_if_safe s e).
Proof.
  intros H. unfold Rti.notify_if_safe. pose proof (sim_grant_search s e) as S1. pose proof (grant_real s e H) as G. destruct (grant_if_safe tp start s e) as [s1 g]. cbn [fst snd] in *.
  destruct g as [(t & p)|]; [|exact S1]. destruct (_ =? 0); [exact S1|]. destruct p; [exfalso; apply (G t); reflexivity|]. eapply sim_trans; [exact S1|apply sim_tag].
Qed.

Lemma free_sim s s' e t : sim s s' -> free s e t <-> free s' e t.
Proof.
  intros H. unfold free. destruct (H e) as (_ & _ & _ & -> & _). split; intros K k D Hin; specialize (K k D Hin); destruct (H k) as (_ & E & _); [rewrite E|rewrite <- E]; exact K.
Qed.
Lemma settled_sim s s' e : sim s s' -> settled s e -> settled s' e.
Proof.
  intros H (N & K). destruct (H e) as (C & _ & E & _ & _ & _ & _ & G & _). specialize (E N). split; [rewrite E; exact N|]. rewrite C, E. intros K1 K2 K3. eapply tag_le_trans; [apply K; [exact K1|exact K2|]|exact G].
  apply (free_sim s s' e _ H), K3.
Qed.

(** ** The search finds a grant when nothing earlier can arrive. *)
Lemma assume_eff s k : r_next (assume_start start s k k) = eff (s k).
Proof. unfold assume_start, eff, tag_eqb. destruct (_ =? 0); [rewrite on_same; reflexivity|reflexivity]. Qed.
Lemma assume_sim s k : sim s (assume_start start s k).
Proof. unfold assume_start. destruct (_ =? 0) eqn:E; [apply sim_start, cmp_eq0, E|apply sim_refl]. Qed.
Lemma eimt_loop_free x l : forall s t, tag_lt x t -> (forall k D, In (k, D) l -> tag_lt x (tag_add (eff (s k)) D)) -> tag_lt x (snd (eimt_loop start l s t)).
Proof.
  induction l as [|(k & D) l IH]; intros s t Ht Hl; [exact Ht|]. cbn [eimt_loop]. apply IH.
  - rewrite assume_eff. destruct (_ <? 0); [apply Hl; now left|exact Ht].
  - intros k' D' Hin. destruct (assume_sim s k k') as (_ & -> & _). apply Hl. now right.
Qed.
Lemma eimt_free s e x : tag_lt x FOREVER_TAG -> free s e x -> tag_lt x (snd (eimt tp start s e)).
Proof.
  intros Hx F. unfold eimt, node_delays. unfold free, table in F. destruct (r_delays (s e)) as [c|] eqn:E; cbn [fst snd].
  - apply eimt_loop_free; [exact Hx|exact F].
  - apply eimt_loop_free; [exact Hx|]. intros k D Hin. destruct (sim_cache s e E k) as (_ & K & _). unfold computed in K. rewrite K. apply F, Hin.
Qed.

Lemma safe_settles s e : wk s -> r_next (s e) <> NEVER_TAG -> settled (notify_if_safe s e) e.
Proof.
  intros H N. pose proof (sim_safe s e H) as S0. destruct (H e) as (_ & Ln & Hp).
  assert (Np : tag_lt NEVER_TAG (r_next (s e))) by (apply tag_le_lt_or_eq in Ln; destruct Ln as [K|K]; [exact K|congruence]).
  split; [destruct (S0 e) as (_ & _ & -> & _); assumption|]. destruct (S0 e) as (C0 & _ & E0 & _). rewrite (E0 N), C0. intros C Hf F. apply (free_sim s _ e _ S0) in F.
  unfold Rti.notify_if_safe.
  assert (TG : forall s1 t, sim s s1 -> tag_le (r_next (s e)) t -> tag_le (r_next (s e)) (r_granted (notify_tag (fun _ => true) s1 e t e))).
  { intros s1 t S1 Ht. destruct (S1 e) as (K1 & _ & _ & _ & _ & _ & K7 & _). unfold notify_tag. rewrite K1, C, K7, Hp. cbn [negb orb]. destruct (tag_compare t (r_granted (s1 e)) <=? 0) eqn:G; cbn [orb].
    - apply cmp_le0 in G. eapply tag_le_trans; eassumption.
    - destruct (tag_compare t NEVER_TAG <? 0) eqn:B; [|rewrite on_same; exact Ht]. apply cmp_lt0 in B. exfalso. apply (tag_lt_irrefl t). eapply tag_lt_le_trans; [exact B|]. eapply tag_le_trans; [apply tag_lt_le, Np|exact Ht]. }
  unfold grant_if_safe. destruct (_ && _) eqn:B.
  - apply andb_true_iff in B. destruct B as (B1 & B2). apply cmp_ge0 in B2. apply cmp_gt0 in B1. destruct (tag_compare (min_completed _ _ _) NEVER_TAG =? 0) eqn:B3.
    + exfalso. apply cmp_eq0 in B3. rewrite B3 in B2. apply (tag_lt_irrefl NEVER_TAG). eapply tag_lt_le_trans; eassumption.
    + apply TG; [apply sim_refl|exact B2].
  - clear B. pose proof (eimt_free s e _ Hf F) as X. pose proof (sim_eimt s e) as S1. destruct (eimt tp start s e) as [s1 td]. cbn [fst snd] in *.
    pose proof (sim_strict s1 e) as S2. destruct (eimt_strict tp start s1 e) as [s2 ts]. cbn [fst] in S2. pose proof (sim_trans _ _ _ S1 S2) as S3.
    destruct (S3 e) as (K1 & _ & K3 & _ & _ & _ & K7 & K8 & _). rewrite (K3 N), K7, Hp. rewrite (proj2 (cmp_gt0 _ _) X), (proj2 (cmp_gt0 _ _) Np). cbn [andb].
    assert (X2 : (0 <=? tag_compare td NEVER_TAG) = true) by (apply cmp_ge0; eapply tag_le_trans; [apply tag_lt_le, Np|apply tag_lt_le, X]). rewrite X2. cbn [andb].
    destruct (0 <? tag_compare td (r_granted (s2 e))) eqn:B.
    + destruct (tag_compare (r_next (s e)) NEVER_TAG =? 0) eqn:B3; [apply cmp_eq0 in B3; contradiction|]. apply TG; [exact S3|apply tag_le_refl].
    + apply cmp_gt0_false in B. destruct (tag_compare td (r_next (s e)) =? 0) eqn:B2; [apply cmp_eq0 in B2; exfalso; rewrite B2 in X; apply (tag_lt_irrefl _ X)|].
      eapply tag_le_trans; [apply tag_lt_le, X|exact B].
Qed.

(** ** The visit of the downstream nodes reaches all of them *)
Definition unvisited (v : nat -> bool) : nat := length (filter (fun i => negb (v i)) (seq 0 (tp_n tp))).
Lemma filter_le {A} (p q : A -> bool) l : (forall x, q x = true -> p x = true) -> (length (filter q l) <= length (filter p l))%nat.
Proof. intros H. induction l as [|x l IH]; [cbn; lia|]. cbn [filter]. specialize (H x). destruct (q x), (p x); cbn [length]; try lia; discriminate (H eq_refl). Qed.
Lemma filter_lt {A} (p q : A -> bool) l e : (forall x, q x = true -> p x = true) -> In e l -> p e = true -> q e = false -> (length (filter q l) < length (filter p l))%nat.
Proof.
  intros H Hin Hp Hq. induction l as [|x l IH]; [destruct Hin|]. cbn [filter]. destruct Hin as [->|Hin].
  - rewrite Hp, Hq. cbn [length]. pose proof (filter_le p q l H). lia.
  - specialize (IH Hin). specialize (H x). destruct (q x), (p x); cbn [length]; try lia; discriminate (H eq_refl).
Qed.
Lemma unvisited_le v v' : (forall x, v x = true -> v' x = true) -> (unvisited v' <= unvisited v)%nat.
Proof. intros H. apply filter_le. intros x. specialize (H x). destruct (v x), (v' x); auto. Qed.
Lemma unvisited_mark v e : (e < tp_n tp)%nat -> v e = false -> (unvisited (upd v e true) < unvisited v)%nat.
Proof.
  intros He Hv. apply (filter_lt _ _ _ e).
  - intros x. destruct (Nat.eq_dec x e) as [->|n]; [rewrite upd_eq; discriminate|rewrite upd_neq by exact n; auto].
  - apply in_seq. lia.
  - rewrite Hv. reflexivity.
  - rewrite upd_eq. reflexivity.
Qed.
Lemma down_range e j : In j (tp_down tp e) -> (j < tp_n tp)%nat.
Proof. intros H. apply Hdown in H. destruct H as (d & H). destruct (lt_dec j (tp_n tp)) as [K|K]; [exact K|]. rewrite Hrange in H by lia. destruct H. Qed.
Lemma down_source e j : In j (tp_down tp e) -> (e < tp_n tp)%nat.
Proof. intros H. apply Hdown in H. destruct H as (d & H). apply Htp in H. apply H. Qed.

Section Visit.
Variable s0 : rti.
Definition vis (s : rti) : Prop := wk s /\ sim s0 s.
Definition wset (s : rti) (x : nat) : Prop := r_next (s0 x) <> NEVER_TAG -> settled s x.
Lemma vis_safe s j : vis s -> vis (notify_if_safe s j) /\ sim s (notify_if_safe s j) /\ wset (notify_if_safe s j) j.
Proof.
  intros (H1 & H3). pose proof (sim_safe s j H1) as S1. split; [|split; [exact S1|]].
  - split; [apply wk_safe, H1|eapply sim_trans; eassumption].
  - intros N. apply safe_settles; [exact H1|]. destruct (H3 j) as (_ & _ & E & _). rewrite (E N). exact N.
Qed.
Lemma wset_sim s s' x : sim s s' -> wset s x -> wset s' x.
Proof. intros H K N. eapply settled_sim; [exact H|apply K, N]. Qed.
Notation body fuel := (fun (sv : rti * (nat -> bool)) j => if snd sv j then sv else notify_down tp start (fun _ => true) fuel (notify_if_safe (fst sv) j, snd sv) j).
Definition dfs_post (s : rti) (v : nat -> bool) (e : nat) (r : rti * (nat -> bool)) : Prop :=
  vis (fst r) /\ sim s (fst r) /\ (forall x, v x = true -> snd r x = true) /\ snd r e = true /\
  (forall x, snd r x = true -> v x = false -> (x = e \/ wset (fst r) x) /\ forall y, In y (tp_down tp x) -> snd r y = true).
Lemma dfs_fold fuel e v :
  (forall s v e, vis s -> (e < tp_n tp)%nat -> v e = false -> (unvisited v <= fuel)%nat -> dfs_post s v e (notify_down tp start (fun _ => true) fuel (s, v) e)) ->
  forall l s1 v1, (forall j, In j l -> (j < tp_n tp)%nat) -> vis s1 -> (forall x, v x = true \/ x = e -> v1 x = true) -> (unvisited v1 <= fuel)%nat ->
  (forall x, v1 x = true -> v x = false -> x = e \/ (wset s1 x /\ forall y, In y (tp_down tp x) -> v1 y = true)) ->
  let r := fold_left (body fuel) l (s1, v1) in
  vis (fst r) /\ sim s1 (fst r) /\ (forall x, v1 x = true -> snd r x = true) /\
  (forall x, snd r x = true -> v x = false -> x = e \/ (wset (fst r) x /\ forall y, In y (tp_down tp x) -> snd r y = true)) /\ (forall j, In j l -> snd r j = true).
Proof.
  intros IH. induction l as [|j l IHl]; intros s1 v1 Hj H1 H2 H3 H4; cbn [fold_left].
  - cbn [fst snd]. split; [exact H1|]. split; [apply sim_refl|]. split; [auto|]. split; [exact H4|intros j []].
  - cbn [snd fst]. destruct (v1 j) eqn:V.
    + destruct (IHl s1 v1 (fun x Hx => Hj x (or_intror Hx)) H1 H2 H3 H4) as (A1 & A2 & A3 & A4 & A5). split; [exact A1|]. split; [exact A2|]. split; [exact A3|]. split; [exact A4|].
      intros x [<-|Hx]; [apply A3, V|apply A5, Hx].
    + destruct (vis_safe s1 j H1) as (B1 & B2 & B3). destruct (IH (notify_if_safe s1 j) v1 j B1 (Hj j (or_introl eq_refl)) V H3) as (C1 & C2 & C3 & C4 & C5).
      destruct (notify_down tp start (fun _ => true) fuel (notify_if_safe s1 j, v1) j) as [s2 v2]. cbn [fst snd] in *.
      destruct (IHl s2 v2 (fun x Hx => Hj x (or_intror Hx)) C1) as (A1 & A2 & A3 & A4 & A5).
      * intros x Hx. apply C3, H2, Hx.
      * eapply Nat.le_trans; [apply (unvisited_le v1 v2 C3)|exact H3].
      * intros x Hx Hv. destruct (v1 x) eqn:V1.
        -- destruct (H4 x V1 Hv) as [->|(W & K)]; [now left|]. right. split; [eapply wset_sim; [eapply sim_trans; [exact B2|exact C2]|exact W]|]. intros y Hy. apply C3, K, Hy.
        -- destruct (C5 x Hx V1) as (W & K). right. split; [|exact K]. destruct W as [->|W]; [eapply wset_sim; [exact C2|exact B3]|exact W].
      * split; [exact A1|]. split; [eapply sim_trans; [exact B2|eapply sim_trans; [exact C2|exact A2]]|]. split; [intros x Hx; apply A3, C3, Hx|]. split; [exact A4|].
        intros x [<-|Hx]; [apply A3, C4|apply A5, Hx].
Qed.
Lemma dfs fuel : forall s v e, vis s -> (e < tp_n tp)%nat -> v e = false -> (unvisited v <= fuel)%nat -> dfs_post s v e (notify_down tp start (fun _ => true) fuel (s, v) e).
Proof.
  induction fuel as [|fuel IH]; intros s v e H He Hv Hu.
  - exfalso. pose proof (unvisited_mark v e He Hv). lia.
  - cbn [notify_down fst snd]. pose proof (unvisited_mark v e He Hv) as Hm.
    destruct (dfs_fold fuel e v IH (tp_down tp e) s (upd v e true)) as (A1 & A2 & A3 & A4 & A5).
    + intros j. apply down_range.
    + exact H.
    + intros x [Hx|Hx]; [destruct (Nat.eq_dec x e) as [->|n]; [apply upd_eq|rewrite upd_neq by exact n; exact Hx]|subst x; apply upd_eq].
    + lia.
    + intros x Hx Hf. left. destruct (Nat.eq_dec x e) as [->|n]; [reflexivity|]. rewrite upd_neq in Hx by exact n. congruence.
    + split; [exact A1|]. split; [exact A2|]. split; [|split].
      * intros x Hx. apply A3. destruct (Nat.eq_dec x e) as [->|n]; [apply upd_eq|rewrite upd_neq by exact n; exact Hx].
      * apply A3, upd_eq.
      * intros x Hx Hf. destruct (A4 x Hx Hf) as [->|(W & K)]; [|split; [now right|exact K]]. split; [now left|]. exact A5.
Qed.
End Visit.

Inductive reach (k : nat) : nat -> Prop :=
| reach_one : forall e, In e (tp_down tp k) -> reach k e
| reach_step : forall v e, reach k v -> In e (tp_down tp v) -> reach k e.
Lemma reach_front k v e : In v (tp_down tp k) -> reach v e -> reach k e.
Proof. intros H R. induction R as [e He|w e R IH He]; [eapply reach_step; [apply reach_one, H|exact He]|eapply reach_step; eassumption]. Qed.
Lemma path_reach c k ds e : upstream_path tp c k ds e -> reach k e.
Proof. intros P. induction P as [k d e H _|k d v ds e H _ P IH]; [apply reach_one, Hdown; eauto|]. eapply reach_front; [apply Hdown; eauto|exact IH]. Qed.

Lemma unvisited_none : (unvisited (fun _ => false) <= S (tp_n tp))%nat.
Proof.
  unfold unvisited. eapply Nat.le_trans; [apply (filter_le (fun _ => true)); reflexivity|]. assert (E : forall l : list nat, filter (fun _ => true) l = l) by (induction l as [|x l IH]; [reflexivity|cbn; congruence]). rewrite E, seq_length. lia.
Qed.
(** After a change at [i] and the visit, every other node is settled: the nodes that are reached by the visit, the others
    because they were before. *)
Lemma down_settles s i : wk s -> let s' := notify_downstream tp start (fun _ => true) s i in
  wk s' /\ sim s s' /\ forall j, r_next (s j) <> NEVER_TAG -> (j <> i -> ~ reach i j -> settled s j) -> (j = i -> settled s i) -> settled s' j.
Proof.
  intros H1. cbv zeta. unfold notify_downstream. destruct (lt_dec i (tp_n tp)) as [Hi|Hi].
  - destruct (dfs s (S (tp_n tp)) s (fun _ => false) i) as (A1 & A2 & A3 & A4 & A5).
    + split; [exact H1|apply sim_refl].
    + exact Hi.
    + reflexivity.
    + apply unvisited_none.
    + destruct (notify_down tp start (fun _ => true) (S (tp_n tp)) (s, fun _ => false) i) as [s' v']. cbn [fst snd] in *. split; [apply A1|]. split; [exact A2|]. intros j N Ho Hs0.
      assert (R : reach i j -> v' j = true). { intros R. induction R as [e He|v e R IH He]; [apply (A5 i A4 eq_refl), He|]. apply (A5 v); [|reflexivity|exact He]. clear - A4 A5 R. induction R as [e He|w e R IH He]; [apply (A5 i A4 eq_refl), He|apply (A5 w IH eq_refl), He]. }
      destruct (Nat.eq_dec j i) as [->|n]; [eapply settled_sim; [exact A2|apply Hs0; reflexivity]|]. destruct (v' j) eqn:V.
      * destruct (A5 j V eq_refl) as ([W|W] & _); [contradiction|]. apply W, N.
      * eapply settled_sim; [exact A2|]. apply Ho; [exact n|]. intros K. apply R in K. discriminate.
  - cbn [notify_down]. assert (E : tp_down tp i = []) by (destruct (tp_down tp i) as [|x l] eqn:E; [reflexivity|]; exfalso; apply Hi, (down_source i x); rewrite E; now left).
    rewrite E. cbn [fold_left fst]. split; [exact H1|]. split; [apply sim_refl|]. intros j N Ho Hs0. destruct (Nat.eq_dec j i) as [->|n]; [apply Hs0; reflexivity|]. apply Ho; [exact n|].
    intros K. assert (B : forall e, ~ reach i e) by (intros e R; induction R as [e He|v e R IH He]; [rewrite E in He; destruct He|exact IH]). apply (B j K).
Qed.

(** ** The tables describe paths *)
Definition sound (s : rti) : Prop :=
  forall e k D, In (k, D) (table s e) -> delay_ok D /\ exists ds, upstream_path tp (fun _ => true) k ds e /\ path_time ds < FOREVER /\ D = path_delay ds.
Lemma computed_empty s e : (tp_n tp <= e)%nat -> fst (computed s e) = [].
Proof.
  intros He. assert (E : tp_up tp e = []) by (apply Hrange, He). unfold computed, compute_delays. cbn [update_delays]. rewrite E. cbn [relax_loop]. destruct (r_connected (s e)).
  all: cbn [d_path d_count d_zdc d_cycle]; replace (filter _ _) with (@nil nat) by (symmetry; apply filter_none); reflexivity.
Qed.
Lemma computed_spec s e : (e < tp_n tp)%nat ->
  (forall k, (exists D, In (k, D) (fst (computed s e))) <-> exists ds, upstream_path tp (fun i => r_connected (s i)) k ds e /\ path_time ds < FOREVER) /\
  (forall k D, In (k, D) (fst (computed s e)) -> (exists ds, upstream_path tp (fun i => r_connected (s i)) k ds e /\ path_time ds < FOREVER /\ D = path_delay ds) /\
     (forall ds, upstream_path tp (fun i => r_connected (s i)) k ds e -> path_time ds < FOREVER -> tag_le D (path_delay ds))).
Proof.
  intros He. destruct (C39_table tp (fun i => r_connected (s i)) e Htp He) as (t & z & c & E & _ & T1 & T2). unfold computed. rewrite E. cbn [fst]. auto.
Qed.
Lemma computed_sound s e k D : In (k, D) (fst (computed s e)) -> delay_ok D /\ exists ds, upstream_path tp (fun _ => true) k ds e /\ path_time ds < FOREVER /\ D = path_delay ds.
Proof.
  intros Hin. split; [apply (computed_ok tp Htp Hrange Hz s e) in Hin; apply Hin|]. destruct (lt_dec e (tp_n tp)) as [He|He]; [|rewrite computed_empty in Hin by lia; destruct Hin].
  destruct (computed_spec s e He) as (_ & T). destruct (T k D Hin) as ((ds & P & Ht & ->) & _). exists ds. split; [|auto]. eapply path_incl; [|exact P]. reflexivity.
Qed.
Lemma sound_upd s s' : sound s -> (forall e c, r_delays (s' e) = Some c -> r_delays (s e) = Some c) -> sound s'.
Proof.
  intros H Hd e k D Hin. unfold table in Hin. destruct (r_delays (s' e)) as [c|] eqn:E; [|eapply computed_sound; exact Hin]. apply (H e). unfold table. rewrite (Hd e c E). exact Hin.
Qed.
Lemma sound_sim s s' : sound s -> sim s s' -> sound s'.
Proof. intros H S1 e k D Hin. destruct (S1 e) as (_ & _ & _ & E & _). rewrite E in Hin. apply (H e), Hin. Qed.

(** ** A new next event *)
Lemma on_conn s i f : (forall n, r_connected (f n) = r_connected n) -> forall j, r_connected (on s i f j) = r_connected (s j).
Proof. intros H j. destruct (Nat.eq_dec i j) as [<-|n]; [rewrite on_same; apply H|rewrite on_other by exact n; reflexivity]. Qed.
Lemma table_on s i f : (forall n, r_connected (f n) = r_connected n) -> (forall n, r_delays (f n) = r_delays n) -> forall j, table (on s i f) j = table s j.
Proof.
  intros H1 H2 j. unfold table. rewrite (computed_ext s (on s i f) j (on_conn s i f H1)). destruct (Nat.eq_dec i j) as [<-|n]; [rewrite on_same, H2; reflexivity|rewrite on_other by exact n; reflexivity].
Qed.
Lemma settled_other s i f j : (forall n, r_connected (f n) = r_connected n) -> (forall n, r_delays (f n) = r_delays n) -> sound s -> j <> i -> ~ reach i j -> settled s j -> settled (on s i f) j.
Proof.
  intros H1 H2 So Hj Hr (N & K). unfold settled. rewrite on_other by congruence. split; [exact N|]. intros C Hf F. apply K; [exact C|exact Hf|]. intros k D Hin. specialize (F k D). rewrite table_on in F by assumption. specialize (F Hin).
  destruct (Nat.eq_dec i k) as [<-|n]; [|rewrite on_other in F by exact n; exact F]. exfalso. apply Hr. destruct (So j i D Hin) as (_ & ds & P & _). eapply path_reach, P.
Qed.
Definition next_base (s : rti) (i : nat) (x : tag) : rti := match tp_up tp i with [] => on (on s i (set_next x)) i (set_granted x) | _ => on s i (set_next x) end.
Lemma update_settles s i x : wk s -> sound s -> x <> NEVER_TAG -> tag_le NEVER_TAG x -> let s' := update_next tp start (fun _ => true) s i x in
  wk s' /\ sim (next_base s i x) s' /\ settled s' i /\ forall j, j <> i -> settled s j -> settled s' j.
Proof.
  intros W So Nx Lx. cbv zeta. unfold update_next, next_base. set (s1 := on s i (set_next x)).
  assert (W1 : wk s1) by (apply wk_on; [exact W|apply W|exact Lx|apply W]).
  assert (N1 : r_next (s1 i) <> NEVER_TAG) by (unfold s1; rewrite on_same; exact Nx).
  assert (O1 : forall j, j <> i -> ~ reach i j -> settled s j -> settled s1 j) by (intros; apply settled_other; auto).
  assert (N2 : forall j, settled s j -> j <> i -> r_next (s1 j) <> NEVER_TAG) by (intros j (K & _) n; unfold s1; rewrite on_other by congruence; exact K).
  destruct (tp_up tp i) eqn:U.
  - set (s2 := on s1 i (set_granted x)). assert (W2 : wk s2) by (apply wk_on; [exact W1|apply W1|unfold s1; rewrite on_same; exact Lx|apply W1]).
    destruct (down_settles s2 i W2) as (A1 & A2 & A3).
    assert (I2 : settled s2 i). { unfold settled, s2, s1. rewrite !on_same. cbn. split; [exact Nx|]. intros _ _ _. apply tag_le_refl. }
    split; [exact A1|]. split; [exact A2|]. split; [apply A3; [apply I2|congruence|intros _; exact I2]|]. intros j n Sj. apply A3; [|intros _ Hr|congruence].
    + unfold s2. rewrite on_other by congruence. apply N2; assumption.
    + unfold s2. assert (K : settled s1 j) by (apply O1; assumption). apply settled_other; auto. eapply sound_upd; [exact So|]. intros e c. unfold s1. destruct (Nat.eq_dec i e) as [<-|n2]; [rewrite on_same; auto|rewrite on_other by exact n2; auto].
  - pose proof (sim_safe s1 i W1) as S3. pose proof (safe_settles s1 i W1 N1) as I3. pose proof (wk_safe s1 i W1) as W3.
    destruct (down_settles (notify_if_safe s1 i) i W3) as (A1 & A2 & A3). split; [exact A1|]. split; [eapply sim_trans; eassumption|]. split; [apply A3; [apply I3|congruence|intros _; exact I3]|].
    intros j n Sj. apply A3; [|intros _ Hr|congruence].
    + destruct (S3 j) as (_ & _ & E & _). rewrite E by (apply N2; assumption). apply N2; assumption.
    + eapply settled_sim; [exact S3|]. apply O1; assumption.
Qed.

(** ** A federate leaves *)
Lemma resign_path (c c1 : nat -> bool) i k ds j : (forall v, v <> i -> c1 v = c v) -> upstream_path tp c k ds j -> j <> i -> ~ reach i j -> upstream_path tp c1 k ds j.
Proof.
  intros Hc P Hj Hr. induction P as [k d j H1 H2|k d v ds j H1 H2 P IH]; [apply path_one; [exact H1|rewrite Hc; assumption]|]. eapply path_step; [exact H1| |apply IH; assumption]. rewrite Hc; [exact H2|].
  intros ->. apply Hr. eapply path_reach, P.
Qed.
Lemma resign_settles s i : wk s -> sound s -> let s1 := on s i (fun n => set_next FOREVER_TAG (set_connected false n)) in let s' := notify_downstream tp start (fun _ => true) s1 i in
  wk s' /\ sim s1 s' /\ forall j, j <> i -> settled s j -> settled s' j.
Proof.
  intros W So. cbv zeta. set (s1 := on s i _). assert (W1 : wk s1). { apply wk_on; [exact W|apply W| |apply W]. cbn. unfold NEVER_TAG, FOREVER_TAG. tg. tag_consts. lia. }
  destruct (down_settles s1 i W1) as (A1 & A2 & A3). split; [exact A1|]. split; [exact A2|]. intros j n Sj. apply A3; [unfold s1; rewrite on_other by congruence; apply Sj|intros _ Hr|congruence].
  destruct Sj as (N & K). unfold settled, s1. rewrite on_other by congruence. fold s1. split; [exact N|]. intros C Hf F. apply K; [exact C|exact Hf|]. intros k D Hin.
  assert (Hk : k <> i). { intros ->. apply Hr. destruct (So j i D Hin) as (_ & ds & P & _). eapply path_reach, P. }
  assert (Hin1 : In (k, D) (table s1 j)).
  { unfold table in *. unfold s1 at 1. rewrite on_other by congruence. destruct (r_delays (s j)); [exact Hin|]. destruct (lt_dec j (tp_n tp)) as [Hl|Hl]; [|rewrite computed_empty in Hin by lia; destruct Hin].
    destruct (computed_spec s j Hl) as (_ & T). destruct (computed_spec s1 j Hl) as (T1 & T2). destruct (T k D Hin) as ((ds & P & Ht & ED) & Hmin).
    assert (Cc : forall v, v <> i -> r_connected (s1 v) = r_connected (s v)) by (intros v Hv; unfold s1; rewrite on_other by congruence; reflexivity).
    assert (P1 : upstream_path tp (fun v => r_connected (s1 v)) k ds j) by (eapply (resign_path (fun v => r_connected (s v))); eassumption).
    destruct (proj2 (T1 k) (ex_intro _ ds (conj P1 Ht))) as (D' & Hin'). destruct (T2 k D' Hin') as ((ds' & P' & Ht' & ED') & Hmin').
    assert (P2 : upstream_path tp (fun v => r_connected (s v)) k ds' j) by (eapply (resign_path (fun v => r_connected (s1 v))); [intros v Hv; symmetry; apply Cc, Hv|exact P'|exact n|exact Hr]).
    replace D with D'; [exact Hin'|]. apply tag_le_antisym; [rewrite ED; apply Hmin'; assumption|rewrite ED'; apply Hmin; assumption]. }
  specialize (F k D Hin1). unfold s1 in F. rewrite on_other in F by congruence. exact F.
Qed.

(** ** The system *)
Record plocal (f : fed) (p : pfed) (s : rti) (i : nat) : Prop := {
  pl_transit : f_alive f = true -> forall g, In g (r_transit (s i)) -> pend f (s i) g \/ In g (p_msgs p) \/ (f_cur f = Some g /\ p_need p = true) \/ exists t, (In (ULtc t) (f_up f) \/ In (URem t) (f_up f)) /\ tag_le g t;
  pl_msgs : f_alive f = true -> forall g, In g (p_msgs p) -> In g (f_queue f);
  pl_net : f_alive f = true -> forall n, p_net p = Some n -> f_cur f = None /\
    ((exists l, f_up f = l ++ [UNet n]) \/
     (f_up f = [] /\ settled s i /\ tag_le (r_next (s i)) n /\ (r_next (s i) = n \/ In (r_next (s i)) (f_queue f) \/ pend f (s i) (r_next (s i)))));
  pl_grant : f_alive f = true -> f_grant f = last_tag (firstn (f_rcvd f) (r_sent (s i)));
  pl_dead : f_alive f = false -> In UResign (f_up f) \/ (r_connected (s i) = false /\ r_next (s i) = FOREVER_TAG) }.
Record PInv (fs : nat -> fed) (ps : nat -> pfed) (s : rti) : Prop := {
  pi_inv : Inv fs s;
  pi_ptag : forall i, r_ptag (s i) = NEVER_TAG;
  pi_sound : sound s;
  pi_local : forall i, plocal (fs i) (ps i) s i;
  pi_last : forall i, tp_up tp i <> [] -> r_granted (s i) = last_tag (r_sent (s i)) }.

Lemma pend_ext f n n' l g : r_sent n' = r_sent n ++ l -> (forall m, In m l -> exists t, m = MTag t) -> (f_rcvd f <= length (r_sent n))%nat -> pend f n' g <-> pend f n g.
Proof.
  intros E A R. unfold pend. rewrite E, skipn_app. replace (f_rcvd f - length (r_sent n))%nat with 0%nat by lia. cbn [skipn]. rewrite in_app_iff. split; [|auto]. intros [K|K]; [exact K|]. destruct (A _ K) as (t & ?). discriminate.
Qed.
(** The federate is unchanged, and so is its record up to grants. *)
Lemma plocal_frame f p s s' i : plocal f p s i -> (f_rcvd f <= length (r_sent (s i)))%nat -> r_connected (s' i) = r_connected (s i) -> (r_next (s i) <> NEVER_TAG -> r_next (s' i) = r_next (s i)) ->
  r_transit (s' i) = r_transit (s i) -> (exists l, r_sent (s' i) = r_sent (s i) ++ l /\ forall m, In m l -> exists t, m = MTag t) -> (settled s i -> settled s' i) -> plocal f p s' i.
Proof.
  intros [H1 H2 H3 H4 H5] R C N T (l & E & A) St. constructor.
  - intros Ha g Hg. rewrite T in Hg. destruct (H1 Ha g Hg) as [K|K]; [|right; exact K]. left. apply (pend_ext f _ _ l g E A R), K.
  - exact H2.
  - intros Ha n Hn. destruct (H3 Ha n Hn) as (K1 & K2). split; [exact K1|]. destruct K2 as [K2|(K2 & K3 & K4 & K5)]; [now left|]. right. rewrite (N (proj1 K3)). split; [exact K2|]. split; [apply St, K3|]. split; [exact K4|].
    destruct K5 as [K5|[K5|K5]]; [now left|right; now left|]. right; right. apply (pend_ext f _ _ l _ E A R), K5.
  - intros Ha. rewrite (H4 Ha), E, firstn_app. replace (f_rcvd f - length (r_sent (s i)))%nat with 0%nat by lia. cbn [firstn]. rewrite app_nil_r. reflexivity.
  - intros Ha. destruct (H5 Ha) as [K|(K1 & K2)]; [now left|]. right. split; [congruence|]. rewrite N; [exact K2|]. rewrite K2. discriminate.
Qed.
Lemma plocal_sim f p s s' i : plocal f p s i -> (f_rcvd f <= length (r_sent (s i)))%nat -> sim s s' -> plocal f p s' i.
Proof.
  intros H R S1. destruct (S1 i) as (C & _ & N & _ & T & _ & _ & _ & L & _). apply (plocal_frame f p s); try assumption. apply settled_sim, S1.
Qed.
Lemma last_sim s s' : (forall i, tp_up tp i <> [] -> r_granted (s i) = last_tag (r_sent (s i))) -> sim s s' -> forall i, tp_up tp i <> [] -> r_granted (s' i) = last_tag (r_sent (s' i)).
Proof. intros H S1 i U. destruct (S1 i) as (_ & _ & _ & _ & _ & _ & _ & _ & _ & K). apply K, H, U. Qed.
Lemma ptag_sim s s' : (forall i, r_ptag (s i) = NEVER_TAG) -> sim s s' -> forall i, r_ptag (s' i) = NEVER_TAG.
Proof. intros H S1 i. destruct (S1 i) as (_ & _ & _ & _ & _ & _ & K & _). rewrite K. apply H. Qed.

(** A step of a federate. *)
Lemma pinv_fed fs ps s fs' ps' i : PInv fs ps s -> Inv fs' s -> (forall j, j <> i -> fs' j = fs j /\ ps' j = ps j) -> plocal (fs' i) (ps' i) s i -> PInv fs' ps' s.
Proof.
  intros [H1 H2 H3 H4 H5] HI Ho L. constructor; try assumption. intros j. destruct (Nat.eq_dec j i) as [->|n]; [exact L|]. destruct (Ho j n) as (-> & ->). apply H4.
Qed.

Lemma plocal_net f p s i t pr : plocal f p s i -> f_alive f = true -> f_cur f = None -> plocal (mkFed true (f_queue f) None (f_done f) (f_grant f) pr (f_up f ++ [UNet t]) (f_rcvd f)) (mkPfed (p_msgs p) (p_need p) (Some t)) s i.
Proof.
  intros [H1 H2 H3 H4 H5] Ha Hc. constructor; cbn [f_alive f_queue f_cur f_up f_grant f_rcvd p_msgs p_need p_net].
  - intros _ g Hg. destruct (H1 Ha g Hg) as [K|[K|[(K & _)|(x & K & L)]]]; [left; exact K|right; now left|congruence|]. right; right; right. exists x. split; [|exact L]. destruct K as [K|K]; [left|right]; apply in_or_app; now left.
  - auto.
  - intros _ n E. injection E as <-. split; [reflexivity|]. left. eauto.
  - intros _. apply H4, Ha.
  - discriminate.
Qed.
Lemma plocal_queue f p s i t pr : plocal f p s i -> f_alive f = true -> plocal (mkFed true (t :: f_queue f) (f_cur f) (f_done f) (f_grant f) pr (f_up f) (f_rcvd f)) p s i.
Proof.
  intros [H1 H2 H3 H4 H5] Ha. constructor; cbn [f_alive f_queue f_cur f_up f_grant f_rcvd].
  - intros _. apply H1, Ha.
  - intros _ g Hg. right. apply H2; assumption.
  - intros _ n Hn. destruct (H3 Ha n Hn) as (K1 & K2). split; [exact K1|]. destruct K2 as [K2|(K2 & K3 & K4 & K5)]; [now left|]. right. split; [exact K2|]. split; [exact K3|]. split; [exact K4|].
    destruct K5 as [K5|[K5|K5]]; [now left|right; left; now right|right; right; exact K5].
  - intros _. apply H4, Ha.
  - discriminate.
Qed.
Lemma eqb_false_neq t x : tag_eqb t x = false <-> t <> x.
Proof. unfold tag_eqb. split; [intros E ->; rewrite (proj2 (cmp_eq0 x x) eq_refl) in E; discriminate|]. intros N. destruct (_ =? 0) eqn:E; [|reflexivity]. apply cmp_eq0 in E. contradiction. Qed.
Lemma plocal_start f p s i t : plocal f p s i -> f_alive f = true -> f_cur f = None ->
  plocal (mkFed true (filter (fun x => negb (tag_eqb t x)) (f_queue f)) (Some t) t (f_grant f) (f_promise f) (f_up f) (f_rcvd f))
    (mkPfed (filter (fun x => negb (tag_eqb t x)) (p_msgs p)) (existsb (tag_eqb t) (p_msgs p)) None) s i.
Proof.
  intros [H1 H2 H3 H4 H5] Ha Hc. constructor; cbn [f_alive f_queue f_cur f_up f_grant f_rcvd p_msgs p_need p_net].
  - intros _ g Hg. destruct (H1 Ha g Hg) as [K|[K|[(K & _)|K]]]; [left; exact K| |congruence|right; right; right; exact K]. destruct (tag_eqb t g) eqn:E.
    + apply cmp_eq0 in E. subst g. right; right; left. split; [reflexivity|]. apply existsb_exists. exists t. split; [exact K|apply cmp_eq0; reflexivity].
    + right; left. apply filter_In. split; [exact K|]. rewrite E. reflexivity.
  - intros _ g Hg. apply filter_In in Hg. apply filter_In. destruct Hg as (K1 & K2). split; [apply H2; assumption|exact K2].
  - discriminate.
  - intros _. apply H4, Ha.
  - discriminate.
Qed.
Lemma plocal_busy f p s i f' : plocal f p s i -> f_alive f = true -> (exists c, f_cur f = Some c) -> f_alive f' = true -> (forall x, In x (f_queue f) -> In x (f_queue f')) -> f_grant f' = f_grant f -> f_rcvd f' = f_rcvd f ->
  (forall m, In m (f_up f) -> In m (f_up f')) -> (forall c, f_cur f = Some c -> p_need p = true -> f_cur f' = Some c \/ In (ULtc c) (f_up f')) -> plocal f' p s i.
Proof.
  intros [H1 H2 H3 H4 H5] Ha (c & Hc) Ha' Hq Hg Hr Hu Hl. constructor.
  - intros _ g Hin. unfold pend. rewrite Hr. destruct (H1 Ha g Hin) as [K|[K|[(K & K2)|(x & K & L)]]]; [left; exact K|right; now left| |].
    + right; right. destruct (Hl g K K2) as [E|E]; [left; auto|]. right. exists g. split; [now left|apply tag_le_refl].
    + right; right; right. exists x. split; [|exact L]. destruct K as [K|K]; [left|right]; apply Hu, K.
  - intros _ g Hg2. apply Hq, H2; assumption.
  - intros _ n Hn. destruct (H3 Ha n Hn) as (K & _). congruence.
  - intros _. rewrite Hg, Hr. apply H4, Ha.
  - congruence.
Qed.
Lemma plocal_recv f p s i m q g : plocal f p s i -> f_alive f = true -> nth_error (r_sent (s i)) (f_rcvd f) = Some m -> q = (match m with MMsg t => t :: f_queue f | _ => f_queue f end) -> g = (match m with MTag t => t | _ => f_grant f end) ->
  plocal (mkFed true q (f_cur f) (f_done f) g (f_promise f) (f_up f) (S (f_rcvd f))) (match m with MMsg t => mkPfed (t :: p_msgs p) (p_need p) (p_net p) | _ => p end) s i.
Proof.
  intros [H1 H2 H3 H4 H5] Ha Hm -> ->. destruct (nth_split_at tp Hrange (fun _ => f) i _ _ _ Hm) as (E1 & E2 & E3).
  assert (PP : forall x, pend f (s i) x -> m = MMsg x \/ In (MMsg x) (skipn (S (f_rcvd f)) (r_sent (s i)))) by (intros x K; unfold pend in K; rewrite E1 in K; exact K).
  constructor; cbn [f_alive f_queue f_cur f_up f_grant f_rcvd].
  - intros _ x Hg. destruct (H1 Ha x Hg) as [K|[K|K]].
    + apply PP in K. destruct K as [->|K]; [right; left; now left|left; exact K].
    + right; left. destruct m; cbn; auto.
    + right; right. destruct m; exact K.
  - intros _ x Hx. destruct m; cbn [p_msgs] in Hx; try (apply H2; assumption). destruct Hx as [->|Hx]; [now left|right; apply H2; assumption].
  - intros _ n Hn. assert (Hn' : p_net p = Some n) by (destruct m; exact Hn). destruct (H3 Ha n Hn') as (K1 & K2). split; [exact K1|]. destruct K2 as [K2|(K2 & K3 & K4 & K5)]; [now left|]. right. split; [exact K2|]. split; [exact K3|]. split; [exact K4|].
    destruct K5 as [K5|[K5|K5]]; [now left|right; left; destruct m; cbn; auto|]. apply PP in K5. destruct K5 as [->|K5]; [right; left; now left|right; right; exact K5].
  - intros _. rewrite E2, last_tag_snoc, (H4 Ha). reflexivity.
  - discriminate.
Qed.
(** A change of a record that no grant depends on. *)
Lemma settled_inert s i F e : (forall n, r_connected (F n) = r_connected n) -> (forall n, r_delays (F n) = r_delays n) -> (forall n, r_next (F n) = r_next n) -> (forall n, r_granted (F n) = r_granted n) -> settled s e -> settled (on s i F) e.
Proof.
  intros H1 H2 H3 H4 (N & K). assert (A : forall j, r_connected (on s i F j) = r_connected (s j) /\ r_next (on s i F j) = r_next (s j) /\ r_granted (on s i F j) = r_granted (s j)).
  { intros j. destruct (Nat.eq_dec i j) as [<-|n]; [rewrite on_same; auto|rewrite on_other by exact n; auto]. }
  destruct (A e) as (A1 & A2 & A3). unfold settled. rewrite A1, A2, A3. split; [exact N|]. intros C Hf F1. apply K; [exact C|exact Hf|]. intros k D Hin. specialize (F1 k D). rewrite table_on in F1 by assumption. specialize (F1 Hin).
  unfold eff in *. destruct (A k) as (_ & B & _). rewrite B in F1. exact F1.
Qed.

Lemma plocal_pop_msg f p s i j g o rest : plocal f p s i -> f_up f = UMsg j g o :: rest -> plocal (pop f rest) p s i.
Proof.
  intros [H1 H2 H3 H4 H5] E. constructor; cbn [f_alive f_queue f_cur f_up f_grant f_rcvd pop]; try assumption.
  - intros Ha x Hx. destruct (H1 Ha x Hx) as [K|[K|[K|(t & K & L)]]]; [left; exact K|right; now left|right; right; now left|]. right; right; right. exists t. split; [|exact L]. rewrite E in K. cbn [In] in K. destruct K as [[K|K]|[K|K]]; try discriminate; auto.
  - intros Ha n Hn. destruct (H3 Ha n Hn) as (K1 & [(l & K2)|(K2 & _)]); [|congruence]. split; [exact K1|]. left. rewrite E in K2. destruct l as [|m l]; [discriminate|]. injection K2 as _ K2. eauto.
  - intros Ha. destruct (H5 Ha) as [K|K]; [|right; exact K]. left. rewrite E in K. destruct K as [K|K]; [discriminate|exact K].
Qed.
(** The record of the federate gets a new next event. *)
Lemma plocal_next f f' p s s' i x t : plocal f p s i -> (f_rcvd f <= length (r_sent (s i)))%nat -> (forall g, In g (r_transit (s i)) -> small tp start g) -> good_tag tp start t ->
  r_connected (s i) = true -> r_connected (s' i) = true -> x = min_tag (transit_peek (r_transit (s i))) t -> r_next (s' i) = x -> r_transit (s' i) = r_transit (s i) ->
  (exists l, r_sent (s' i) = r_sent (s i) ++ l /\ forall m, In m l -> exists t, m = MTag t) -> settled s' i ->
  ((exists rest, f_up f = UNet t :: rest /\ f' = pop f rest) \/ (f' = f /\ pend f (s i) t /\ (r_next (s i) <> NEVER_TAG -> tag_le t (r_next (s i))))) -> plocal f' p s' i.
Proof.
  intros [H1 H2 H3 H4 H5] R Ht Gt C C' Ex Nx T (l & E & A) St W.
  assert (F : f_alive f' = f_alive f /\ f_queue f' = f_queue f /\ f_cur f' = f_cur f /\ f_grant f' = f_grant f /\ f_rcvd f' = f_rcvd f) by (destruct W as [(rest & _ & ->)|(-> & _)]; cbn; auto).
  destruct F as (F1 & F2 & F3 & F4 & F5).
  assert (PP : forall g, pend f' (s' i) g <-> pend f (s i) g) by (intros g; unfold pend; rewrite F5; apply (pend_ext f _ _ l g E A R)).
  assert (Px : tag_le x t) by (rewrite Ex; apply min_tag_le).
  assert (X : x = t \/ In x (r_transit (s i))).
  { rewrite Ex. unfold min_tag. destruct (_ <? 0) eqn:B; [|now left]. destruct (peek_in (r_transit (s i))) as [K|K]; [|now right]. exfalso. rewrite K in B. apply cmp_lt0 in B. destruct Gt as [Gt| ->]; [apply small_forever in Gt|]; unfold FOREVER_TAG in *; tg; lia. }
  assert (UU : forall y, (In (ULtc y) (f_up f) \/ In (URem y) (f_up f)) -> In (ULtc y) (f_up f') \/ In (URem y) (f_up f')).
  { intros y Hy. destruct W as [(rest & W1 & ->)|(-> & _)]; [|exact Hy]. cbn [f_up pop]. rewrite W1 in Hy. destruct Hy as [[K|K]|[K|K]]; try discriminate; auto. }
  constructor; rewrite ?F1, ?F2, ?F3, ?F4, ?F5.
  - intros Ha g Hg. rewrite T in Hg. rewrite PP. destruct (H1 Ha g Hg) as [K|[K|[K|(y & K & L)]]]; [now left|right; now left|right; right; now left|]. right; right; right. exists y. auto.
  - exact H2.
  - intros Ha n Hn. destruct (H3 Ha n Hn) as (K1 & K2). split; [exact K1|].
    assert (Q : f_up f = [] \/ f_up f = [UNet n] -> In x (r_transit (s i)) -> In x (f_queue f) \/ pend f' (s' i) x).
    { intros Eu Hx. rewrite PP. destruct (H1 Ha x Hx) as [K|[K|[(K & _)|(y & K & _)]]]; [now right|left; apply H2; assumption|congruence|]. exfalso. destruct Eu as [Eu|Eu]; rewrite Eu in K; cbn in K; destruct K as [K|K]; destruct K; try discriminate; contradiction. }
    destruct W as [(rest & W1 & ->)|(-> & W2 & W3)]; cbn [f_up pop].
    + destruct K2 as [(l0 & K2)|(K2 & _)]; [|congruence]. rewrite W1 in K2. destruct l0 as [|m l0]; cbn [app] in K2.
      * injection K2 as -> ->. right. rewrite Nx. split; [reflexivity|]. split; [exact St|]. split; [exact Px|]. destruct X as [X|X]; [now left|right]. apply Q; [now right|exact X].
      * injection K2 as _ K2. left. eauto.
    + destruct K2 as [K2|(K2 & K3 & K4 & K5)]; [now left|]. right. rewrite Nx. split; [exact K2|]. split; [exact St|]. split; [eapply tag_le_trans; [exact Px|eapply tag_le_trans; [apply W3, K3|exact K4]]|].
      right. destruct X as [X|X]; [right; rewrite X; apply PP, W2|apply Q; auto].
  - intros Ha. rewrite (H4 Ha), E, firstn_app. replace (f_rcvd f - length (r_sent (s i)))%nat with 0%nat by lia. cbn [firstn]. rewrite app_nil_r. reflexivity.
  - intros Ha. destruct (H5 Ha) as [K|(K & _)]; [|congruence]. left. destruct W as [(rest & W1 & ->)|(-> & _)]; [|exact K]. rewrite W1 in K. destruct K as [K|K]; [discriminate|exact K].
Qed.

Lemma base_facts s i x j : let b := next_base s i x in r_connected (b j) = r_connected (s j) /\ r_transit (b j) = r_transit (s j) /\ r_sent (b j) = r_sent (s j) /\ r_ptag (b j) = r_ptag (s j) /\ r_delays (b j) = r_delays (s j) /\
  r_next (b j) = (if (i =? j)%nat then x else r_next (s j)) /\ (tp_up tp j <> [] -> r_granted (b j) = r_granted (s j)).
Proof.
  cbv zeta. unfold next_base. destruct (tp_up tp i) eqn:U; destruct (Nat.eqb_spec i j) as [<-|n]; rewrite ?on_same, ?on_other by exact n; cbn; auto 10. do 6 (split; [reflexivity|]). congruence.
Qed.

Lemma fed_rcvd fs s i : Inv fs s -> (f_rcvd (fs i) <= length (r_sent (s i)))%nat.
Proof. intros H. apply (l_rcvd _ _ _ _ _ (i_local _ _ _ _ H i)). Qed.

(** [update_next] seen from the invariant. *)
Lemma pinv_update fs ps s i t f' : (forall j, plocal (fs j) (ps j) s j) -> (forall j, (f_rcvd (fs j) <= length (r_sent (s j)))%nat) -> wk s -> sound s -> (forall j, tp_up tp j <> [] -> r_granted (s j) = last_tag (r_sent (s j))) ->
  (forall g, In g (r_transit (s i)) -> small tp start g) -> good_tag tp start t -> r_connected (s i) = true ->
  ((exists rest, f_up (fs i) = UNet t :: rest /\ f' = pop (fs i) rest) \/ (f' = fs i /\ pend (fs i) (s i) t /\ (r_next (s i) <> NEVER_TAG -> tag_le t (r_next (s i))))) ->
  let s' := update_fed_next tp start (fun _ => true) s i t in
  (forall j, plocal (upd fs i f' j) (ps j) s' j) /\ (forall j, r_ptag (s' j) = NEVER_TAG) /\ sound s' /\ (forall j, tp_up tp j <> [] -> r_granted (s' j) = last_tag (r_sent (s' j))).
Proof.
  intros Hl Hr W So La Ht Gt C Wf. cbv zeta. unfold update_fed_next. fold (min_tag (transit_peek (r_transit (s i))) t). set (x := min_tag _ _).
  assert (Gx : good_tag tp start x) by (apply min_good; [apply peek_good, Ht|exact Gt]).
  assert (Lx : tag_lt NEVER_TAG x) by (destruct Gx as [K| ->]; [apply (small_never tp start Hs), K|unfold NEVER_TAG, FOREVER_TAG; tg; tag_consts; lia]).
  assert (Nx : x <> NEVER_TAG) by (intros K; rewrite K in Lx; unfold NEVER_TAG in Lx; tg; lia).
  destruct (update_settles s i x W So Nx (tag_lt_le _ _ Lx)) as (A1 & A2 & A3 & A4). set (s' := update_next _ _ _ _ _ _) in *.
  assert (B : forall j, r_connected (s' j) = r_connected (s j) /\ r_transit (s' j) = r_transit (s j) /\ (exists l, r_sent (s' j) = r_sent (s j) ++ l /\ forall m, In m l -> exists t, m = MTag t)).
  { intros j. destruct (base_facts s i x j) as (B1 & B2 & B3 & _). destruct (A2 j) as (C1 & _ & _ & _ & C5 & _ & _ & _ & (C9 & _)). rewrite C1, C5, <- B1, <- B2, <- B3. auto. }
  assert (N : forall j, r_next (next_base s i x j) <> NEVER_TAG -> r_next (s' j) = r_next (next_base s i x j)) by (intros j; apply A2).
  split; [|split; [|split]].
  - intros j. destruct (B j) as (B1 & B2 & B3). destruct (base_facts s i x j) as (_ & _ & _ & _ & _ & B6 & _). specialize (N j). rewrite B6 in N. clear B6. destruct (Nat.eqb_spec i j) as [Ej|n].
    + subst j. rewrite upd_eq. apply (plocal_next (fs i) f' (ps i) s s' i x t); auto. congruence.
    + rewrite upd_neq by congruence. apply (plocal_frame _ _ s); auto.
  - intros j. destruct (A2 j) as (_ & _ & _ & _ & _ & _ & E & _). rewrite E. destruct (base_facts s i x j) as (_ & _ & _ & E2 & _). rewrite E2. apply W.
  - apply (sound_sim (next_base s i x)); [|exact A2]. apply (sound_upd s); [exact So|]. intros e c E. destruct (base_facts s i x e) as (_ & _ & _ & _ & E2 & _). congruence.
  - apply (last_sim (next_base s i x)); [|exact A2]. intros j U. destruct (base_facts s i x j) as (_ & _ & E3 & _ & _ & _ & E7). rewrite E3, (E7 U). apply La, U.
Qed.

Lemma pinv_take_net fs ps s i t rest : PInv fs ps s -> f_up (fs i) = UNet t :: rest -> PInv (upd fs i (pop (fs i) rest)) ps (update_fed_next tp start (fun _ => true) s i t).
Proof.
  intros [H1 H2 H3 H4 H5] E. pose proof (tk_up tp start fs s H1 i _ _ E) as U. cbn in U. pose proof (tk_conn tp start fs s H1 i _ _ E) as C.
  destruct (pinv_update fs ps s i t (pop (fs i) rest) H4 (fun j => fed_rcvd fs s j H1) (inv_wk fs s H1 H2) H3 H5 (l_transit _ _ _ _ _ (i_local _ _ _ _ H1 i)) U C) as (A1 & A2 & A3 & A4); [left; eauto|].
  constructor; try assumption. apply inv_take_net; assumption.
Qed.

Lemma pinv_take_ltc fs ps s i t rest : PInv fs ps s -> f_up (fs i) = ULtc t :: rest -> PInv (upd fs i (pop (fs i) (URem t :: rest))) ps (tag_complete tp start (fun _ => true) s i t).
Proof.
  intros [H1 H2 H3 H4 H5] E. pose proof (inv_wk fs s H1 H2) as W. set (s1 := on s i (set_completed t)).
  assert (W1 : wk s1) by (apply wk_on; apply W).
  assert (K : wk (tag_complete tp start (fun _ => true) s i t) /\ sim s1 (tag_complete tp start (fun _ => true) s i t)).
  { apply (tag_complete_P tp start (fun z => wk z /\ sim s1 z)); [|split; [exact W1|apply sim_refl]]. intros z e (K1 & K2). split; [apply wk_safe, K1|eapply sim_trans; [exact K2|apply sim_safe, K1]]. }
  destruct K as (_ & S1).
  assert (F : forall j, r_connected (s1 j) = r_connected (s j) /\ r_next (s1 j) = r_next (s j) /\ r_transit (s1 j) = r_transit (s j) /\ r_sent (s1 j) = r_sent (s j) /\ r_granted (s1 j) = r_granted (s j) /\ r_delays (s1 j) = r_delays (s j)).
  { intros j. unfold s1. destruct (Nat.eq_dec i j) as [<-|n]; [rewrite on_same|rewrite on_other by exact n]; cbn; auto 10. }
  constructor.
  - apply inv_take_ltc; assumption.
  - apply (ptag_sim s1); [|exact S1]. intros j. apply W1.
  - apply (sound_sim s1); [|exact S1]. apply (sound_upd s); [exact H3|]. intros e c Ec. destruct (F e) as (_ & _ & _ & _ & _ & F6). congruence.
  - intros j. destruct (F j) as (F1 & F2 & F3 & F4 & F5 & F6). pose proof (fed_rcvd fs s j H1) as R. assert (L1 : plocal (fs j) (ps j) s1 j).
    { apply (plocal_frame _ _ s); auto; [exists []; split; [rewrite F4; symmetry; apply app_nil_r|intros m []]|]. apply settled_inert; reflexivity. }
    assert (L2 : plocal (upd fs i (pop (fs i) (URem t :: rest)) j) (ps j) s1 j).
    { destruct (Nat.eq_dec j i) as [->|n]; [|rewrite upd_neq by exact n; exact L1]. rewrite upd_eq. destruct L1 as [L1 L2 L3 L4 L5]. constructor; cbn [f_alive f_queue f_cur f_up f_grant f_rcvd pop]; try assumption.
      - intros Ha g Hg. destruct (L1 Ha g Hg) as [K|[K|[K|(y & K & L)]]]; [now left|right; now left|right; right; now left|]. right; right; right. exists y. split; [|exact L]. rewrite E in K. cbn [In] in *. destruct K as [[K|K]|[K|K]]; try discriminate; auto. injection K as ->. auto.
      - intros Ha n Hn. destruct (L3 Ha n Hn) as (K1 & [(l0 & K2)|(K2 & _)]); [|congruence]. split; [exact K1|]. left. rewrite E in K2. destruct l0 as [|m l0]; [discriminate|]. injection K2 as _ K2. exists (URem t :: l0). rewrite K2. reflexivity.
      - intros Ha. destruct (L5 Ha) as [K|K]; [|right; exact K]. left. rewrite E in K. destruct K as [K|K]; [discriminate|right; exact K]. }
    apply (plocal_sim _ _ s1); [exact L2| |exact S1]. rewrite F4. destruct (Nat.eq_dec j i) as [->|n]; [rewrite upd_eq; exact R|rewrite upd_neq by exact n; exact R].
  - apply (last_sim s1); [|exact S1]. intros j U. destruct (F j) as (_ & _ & _ & F4 & F5 & _). rewrite F4, F5. apply H5, U.
Qed.

Lemma pinv_take_rem fs ps s i t rest : PInv fs ps s -> f_up (fs i) = URem t :: rest -> PInv (upd fs i (pop (fs i) rest)) ps (on s i (fun n => set_transit (transit_remove t (r_transit n)) n)).
Proof.
  intros [H1 H2 H3 H4 H5] E. set (s1 := on _ _ _).
  assert (F : forall j, r_connected (s1 j) = r_connected (s j) /\ r_next (s1 j) = r_next (s j) /\ (j <> i -> r_transit (s1 j) = r_transit (s j)) /\ r_sent (s1 j) = r_sent (s j) /\ r_granted (s1 j) = r_granted (s j) /\ r_delays (s1 j) = r_delays (s j) /\ r_ptag (s1 j) = r_ptag (s j)).
  { intros j. unfold s1. destruct (Nat.eq_dec i j) as [<-|n]; [rewrite on_same|rewrite on_other by exact n]; cbn; auto 10. do 2 (split; [reflexivity|]). split; [congruence|auto]. }
  constructor.
  - apply inv_take_rem; assumption.
  - intros j. destruct (F j) as (_ & _ & _ & _ & _ & _ & ->). apply H2.
  - apply (sound_upd s); [exact H3|]. intros e c Ec. destruct (F e) as (_ & _ & _ & _ & _ & F6 & _). congruence.
  - intros j. destruct (F j) as (F1 & F2 & F3 & F4 & F5 & F6 & _). assert (Sx : settled s j -> settled s1 j) by (apply settled_inert; reflexivity). destruct (Nat.eq_dec j i) as [->|n].
    + rewrite upd_eq. destruct (H4 i) as [L1 L2 L3 L4 L5]. constructor; cbn [f_alive f_queue f_cur f_up f_grant f_rcvd pop]; unfold pend; cbn [f_rcvd pop]; rewrite ?F4, ?F1, ?F2; try assumption.
      * intros Ha g Hg. unfold s1 in Hg. rewrite on_same in Hg. cbn [r_transit set_transit] in Hg. apply remove_in in Hg. destruct Hg as (Hg & Hn). destruct (L1 Ha g Hg) as [K|[K|[K|(y & K & L)]]]; [left; exact K|right; now left|right; right; now left|].
        right; right; right. exists y. split; [|exact L]. rewrite E in K. cbn [In] in K. destruct K as [[K|K]|[K|K]]; try discriminate; auto. exfalso. injection K as ->.
        destruct Hn as [Hn| ->]; [|pose proof (small_forever tp start _ (l_transit _ _ _ _ _ (i_local _ _ _ _ H1 i) _ Hg)) as Hn]; unfold FOREVER_TAG in *; tg; lia.
      * intros Ha n Hn. destruct (L3 Ha n Hn) as (K1 & [(l0 & K2)|(K2 & _)]); [|congruence]. split; [exact K1|]. left. rewrite E in K2. destruct l0 as [|m l0]; [discriminate|]. injection K2 as _ K2. eauto.
      * intros Ha. destruct (L5 Ha) as [K|K]; [|right; exact K]. left. rewrite E in K. destruct K as [K|K]; [discriminate|exact K].
    + rewrite upd_neq by exact n. apply (plocal_frame _ _ s); auto; [apply fed_rcvd, H1|]. exists []. split; [rewrite F4; symmetry; apply app_nil_r|intros m []].
  - intros j U. destruct (F j) as (_ & _ & _ & F4 & F5 & _). rewrite F4, F5. apply H5, U.
Qed.

Lemma pinv_take_resign fs ps s i rest : PInv fs ps s -> f_up (fs i) = UResign :: rest -> PInv (upd fs i (pop (fs i) rest)) ps (notify_downstream tp start (fun _ => true) (on s i (fun n => set_next FOREVER_TAG (set_connected false n))) i).
Proof.
  intros [H1 H2 H3 H4 H5] E. pose proof (inv_wk fs s H1 H2) as W. pose proof (tk_up tp start fs s H1 i _ _ E) as U. cbn in U.
  destruct (resign_settles s i W H3) as (A1 & A2 & A3). set (s1 := on s i _) in *. set (s' := notify_downstream _ _ _ _ _) in *.
  constructor.
  - apply inv_take_resign; assumption.
  - intros j. apply A1.
  - apply (sound_sim s1); [|exact A2]. apply (sound_upd s); [exact H3|]. intros e c. unfold s1. destruct (Nat.eq_dec i e) as [<-|n]; [rewrite on_same|rewrite on_other by exact n]; auto.
  - intros j. destruct (A2 j) as (B1 & _ & B3 & _ & B5 & _ & _ & _ & (B9 & _)). destruct (Nat.eq_dec j i) as [->|n].
    + rewrite upd_eq. unfold s1 in B1, B3. rewrite on_same in B1, B3. constructor; cbn [f_alive pop]; try congruence. intros _. right. split; [exact B1|apply B3; discriminate].
    + rewrite upd_neq by exact n. unfold s1 in B1, B3, B5, B9. rewrite !on_other in B1, B3, B5, B9 by congruence. apply (plocal_frame _ _ s); auto. apply fed_rcvd, H1.
  - apply (last_sim s1); [|exact A2]. intros j Uj. unfold s1. destruct (Nat.eq_dec i j) as [<-|n]; [rewrite on_same|rewrite on_other by exact n]; apply H5, Uj.
Qed.
Lemma skip_last {A} k (l : list A) m : (k <= length l)%nat -> skipn k (l ++ [m]) = skipn k l ++ [m].
Proof. intros H. rewrite skipn_app. replace (k - length l)%nat with 0%nat by lia. reflexivity. Qed.
Lemma first_last {A} k (l : list A) m : (k <= length l)%nat -> firstn k (l ++ [m]) = firstn k l.
Proof. intros H. rewrite firstn_app. replace (k - length l)%nat with 0%nat by lia. cbn [firstn]. apply app_nil_r. Qed.
(** A message is forwarded. *)
Lemma plocal_msg f p s s' j g : plocal f p s j -> (f_rcvd f <= length (r_sent (s j)))%nat -> r_connected (s' j) = r_connected (s j) -> r_next (s' j) = r_next (s j) -> r_sent (s' j) = r_sent (s j) ++ [MMsg g] ->
  (forall x, In x (r_transit (s' j)) -> x = g \/ In x (r_transit (s j))) -> (settled s j -> settled s' j) -> plocal f p s' j.
Proof.
  intros [H1 H2 H3 H4 H5] R C N E T St.
  assert (PP : forall x, x = g \/ pend f (s j) x -> pend f (s' j) x).
  { intros x K. unfold pend in *. rewrite E, skip_last by exact R. apply in_or_app. destruct K as [->|K]; [right; now left|now left]. }
  constructor.
  - intros Ha x Hx. apply T in Hx. destruct Hx as [->|Hx]; [left; apply PP; now left|]. destruct (H1 Ha x Hx) as [K|K]; [left; apply PP; now right|right; exact K].
  - exact H2.
  - intros Ha n Hn. destruct (H3 Ha n Hn) as (K1 & K2). split; [exact K1|]. destruct K2 as [K2|(K2 & K3 & K4 & K5)]; [now left|]. right. rewrite N. split; [exact K2|]. split; [apply St, K3|]. split; [exact K4|].
    destruct K5 as [K5|[K5|K5]]; [now left|right; now left|right; right; apply PP; now right].
  - intros Ha. rewrite (H4 Ha), E, first_last by exact R. reflexivity.
  - rewrite C, N. exact H5.
Qed.
Lemma pinv_take_msg fs ps s s' i j g o rest : PInv fs ps s -> f_up (fs i) = UMsg j g o :: rest -> forward tp start (fun _ => true) s j g = Some s' -> PInv (upd fs i (pop (fs i) rest)) ps s'.
Proof.
  intros [H1 H2 H3 H4 H5] E F. pose proof (inv_take_msg tp start Htp Hrange Hz Hs fs s s' i j g o rest H1 E F) as HI. pose proof (tk_up tp start fs s H1 i _ _ E) as U. cbn in U. destruct U as (So & Sg & _).
  set (fs1 := upd fs i (pop (fs i) rest)) in *.
  assert (R1 : forall k, (f_rcvd (fs1 k) <= length (r_sent (s k)))%nat).
  { intros k. pose proof (fed_rcvd fs s k H1) as R. unfold fs1. destruct (Nat.eq_dec k i) as [->|n]; [rewrite upd_eq; exact R|rewrite upd_neq by exact n; exact R]. }
  assert (L1 : forall k, plocal (fs1 k) (ps k) s k).
  { intros k. unfold fs1. destruct (Nat.eq_dec k i) as [->|n]; [rewrite upd_eq; eapply plocal_pop_msg; [apply H4|exact E]|rewrite upd_neq by exact n; apply H4]. }
  unfold forward in F. destruct (r_connected (s j)) eqn:C; cbn [negb] in F; [|injection F as <-; constructor; assumption]. injection F as F.
  set (s2 := if tag_compare (r_completed (on s j (add_sent (MMsg g)) j)) g <? 0 then on (on s j (add_sent (MMsg g))) j (fun n => set_transit (transit_insert g (r_transit n)) n) else on s j (add_sent (MMsg g))) in *.
  assert (Q : (forall k, r_connected (s2 k) = r_connected (s k) /\ r_next (s2 k) = r_next (s k) /\ r_granted (s2 k) = r_granted (s k) /\ r_delays (s2 k) = r_delays (s k) /\ r_ptag (s2 k) = r_ptag (s k) /\
      (k <> j -> r_transit (s2 k) = r_transit (s k) /\ r_sent (s2 k) = r_sent (s k))) /\ r_sent (s2 j) = r_sent (s j) ++ [MMsg g] /\ (forall x, In x (r_transit (s2 j)) -> x = g \/ In x (r_transit (s j))) /\ (forall e, settled s e -> settled s2 e)).
  { unfold s2. destruct (_ <? 0).
    - split; [intros k; destruct (Nat.eq_dec j k) as [<-|n]; [rewrite !on_same; cbn; do 5 (split; [reflexivity|]); congruence|rewrite !on_other by exact n; auto 10]|]. rewrite !on_same. split; [reflexivity|]. split; [intros x Hx; apply insert_in in Hx; exact Hx|].
      intros e K. apply settled_inert; try reflexivity. apply settled_inert; try reflexivity. exact K.
    - split; [intros k; destruct (Nat.eq_dec j k) as [<-|n]; [rewrite !on_same; cbn; do 5 (split; [reflexivity|]); congruence|rewrite !on_other by exact n; auto 10]|]. rewrite !on_same. split; [reflexivity|]. split; [intros x Hx; right; exact Hx|].
      intros e K. apply settled_inert; try reflexivity. exact K. }
  clearbody s2. destruct Q as (Q & Qs & Qt & Qe).
  assert (L2 : forall k, plocal (fs1 k) (ps k) s2 k).
  { intros k. destruct (Q k) as (Q1 & Q2 & Q3 & Q4 & Q5 & Q6). destruct (Nat.eq_dec k j) as [->|n]; [apply (plocal_msg _ _ s s2 j g); auto|]. destruct (Q6 n) as (Q7 & Q8). apply (plocal_frame _ _ s); auto. exists []. split; [rewrite Q8; symmetry; apply app_nil_r|intros m []]. }
  assert (R2 : forall k, (f_rcvd (fs1 k) <= length (r_sent (s2 k)))%nat).
  { intros k. specialize (R1 k). destruct (Nat.eq_dec k j) as [->|n]; [rewrite Qs, app_length; lia|]. destruct (Q k) as (_ & _ & _ & _ & _ & Q6). destruct (Q6 n) as (_ & ->). exact R1. }
  assert (So2 : sound s2) by (apply (sound_upd s); [exact H3|]; intros e c Ec; destruct (Q e) as (_ & _ & _ & Q4 & _); congruence).
  assert (P2 : forall k, r_ptag (s2 k) = NEVER_TAG) by (intros k; destruct (Q k) as (_ & _ & _ & _ & -> & _); apply H2).
  assert (La2 : forall k, tp_up tp k <> [] -> r_granted (s2 k) = last_tag (r_sent (s2 k))).
  { intros k U. destruct (Q k) as (_ & _ & Q3 & _ & _ & Q6). rewrite Q3, (H5 k U). destruct (Nat.eq_dec k j) as [->|n]; [rewrite Qs, last_tag_snoc; reflexivity|]. destruct (Q6 n) as (_ & ->). reflexivity. }
  destruct (tag_compare g (r_next (s2 j)) <? 0) eqn:T; subst s'; [|constructor; assumption]. apply cmp_lt0 in T.
  assert (W2 : wk s2).
  { intros e. pose proof (inv_wk fs s H1 H2 e) as (W1 & W3 & W4). destruct (Q e) as (_ & Q2 & _ & Q4 & _). rewrite Q2, Q4. auto. }
  destruct (pinv_update fs1 ps s2 j g (fs1 j) L2 R2 W2 So2 La2) as (A1 & A2 & A3 & A4).
  - intros x Hx. apply Qt in Hx. destruct Hx as [->|Hx]; [exact Sg|apply (l_transit _ _ _ _ _ (i_local _ _ _ _ H1 j)), Hx].
  - left. exact Sg.
  - destruct (Q j) as (-> & _). exact C.
  - right. split; [reflexivity|]. split; [|intros _; apply tag_lt_le, T]. unfold pend. rewrite Qs, skip_last by apply R1. apply in_or_app. right. now left.
  - constructor; try assumption. intros k. specialize (A1 k). destruct (Nat.eq_dec k j) as [->|n]; [rewrite upd_eq in A1|rewrite upd_neq in A1 by exact n]; exact A1.
Qed.

(** ** Every execution *)
Lemma pinv_init : PInv (fun _ => init_fed start) (fun _ => init_pfed) init_rti.
Proof.
  constructor.
  - apply inv_init; assumption.
  - reflexivity.
  - intros e k D Hin. unfold table in Hin. cbn [init_rti init_node r_delays] in Hin. eapply computed_sound. exact Hin.
  - intros i. constructor; cbn; try discriminate; try (intros _ g []); reflexivity.
  - reflexivity.
Qed.
Lemma pinv_step y o y' : PInv (y_fed (p_sys y)) (p_fed y) (y_rti (p_sys y)) -> p_step tp start y o = Some y' -> PInv (y_fed (p_sys y')) (p_fed y') (y_rti (p_sys y')).
Proof.
  intros H K. unfold p_step in K. destruct (p_allowed y o) eqn:Al; [|discriminate]. destruct (sys_step tp start (p_sys y) o) as [z|] eqn:St; [|discriminate]. injection K as <-. cbn [p_sys p_fed].
  pose proof (inv_step tp start Htp Hrange Hz Hs _ _ _ (pi_inv _ _ _ H) St) as HI. destruct y as [[s fs] ps]. cbn [p_sys p_fed y_fed y_rti] in *.
  destruct o as [i t|i t|i t|i t|i j d|i ltc|i|i|i]; cbn [sys_step y_fed y_rti] in St; cbn [p_note p_sys p_fed y_fed y_rti].
  - destruct (_ && _) eqn:B in St; [|discriminate]. injection St as <-. cbn [y_fed y_rti set_fed] in *. rewrite !andb_true_iff in B. destruct B as (((B1 & B2) & B3) & B4). assert (Ec : f_cur (fs i) = None) by (destruct (f_cur (fs i)); [discriminate|reflexivity]).
    apply (pinv_fed fs ps s _ _ i H HI); [intros j n; rewrite !upd_neq by exact n; auto|]. rewrite !upd_eq. apply plocal_net; [apply H|exact B1|exact Ec].
  - destruct (_ && _) eqn:B in St; [|discriminate]. injection St as <-. cbn [y_fed y_rti set_fed] in *. rewrite !andb_true_iff in B. destruct B as (((B1 & B2) & B3) & B4).
    apply (pinv_fed fs ps s _ _ i H HI); [intros j n; rewrite !upd_neq by exact n; auto|]. rewrite !upd_eq. apply plocal_queue; [apply H|exact B1].
  - destruct (_ && _) eqn:B in St; [|discriminate]. injection St as <-. cbn [y_fed y_rti set_fed] in *. rewrite !andb_true_iff in B. destruct B as ((((B1 & B2) & B3) & B4) & B5). assert (Ec : f_cur (fs i) = None) by (destruct (f_cur (fs i)); [discriminate|reflexivity]).
    apply (pinv_fed fs ps s _ _ i H HI); [intros j n; rewrite !upd_neq by exact n; auto|]. rewrite !upd_eq. apply plocal_start; [apply H|exact B1|exact Ec].
  - destruct (f_cur (fs i)) as [c|] eqn:Ec in St; [|discriminate]. destruct (_ && _) eqn:B in St; [|discriminate]. injection St as <-. cbn [y_fed y_rti set_fed] in *. rewrite !andb_true_iff in B. destruct B as ((B1 & B2) & B3).
    apply (pinv_fed fs ps s _ _ i H HI); [intros j n; rewrite !upd_neq by exact n; auto|]. rewrite !upd_eq. rewrite <- Ec. apply plocal_queue; [apply H|exact B1].
  - destruct (f_cur (fs i)) as [c|] eqn:Ec in St; [|discriminate]. destruct (_ && _) eqn:B in St; [|discriminate]. injection St as <-. cbn [y_fed y_rti set_fed] in *. rewrite !andb_true_iff in B. destruct B as ((((B1 & B2) & B3) & B4) & B5).
    apply (pinv_fed fs ps s _ _ i H HI); [intros k n; rewrite !upd_neq by exact n; auto|]. rewrite !upd_eq. apply (plocal_busy (fs i)); cbn [push f_alive f_queue f_cur f_grant f_rcvd f_up]; eauto; [apply H|intros m Hm; apply in_or_app; now left].
  - destruct (f_cur (fs i)) as [c|] eqn:Ec in St; [|discriminate]. destruct (f_alive (fs i)) eqn:B in St; [|discriminate]. injection St as <-. cbn [y_fed y_rti set_fed] in *. cbn [p_allowed p_fed] in Al. apply Bool.eqb_prop in Al.
    apply (pinv_fed fs ps s _ _ i H HI); [intros k n; rewrite !upd_neq by exact n; auto|]. rewrite !upd_eq. apply (plocal_busy (fs i)); cbn [f_alive f_queue f_cur f_grant f_rcvd f_up]; eauto; [apply H|intros m Hm; destruct ltc; [apply in_or_app; now left|exact Hm]|].
    intros c' Ec' Nd. right. rewrite Ec in Ec'. injection Ec' as <-. rewrite Al, Nd. apply in_or_app. right. now left.
  - destruct (f_alive (fs i)) eqn:B in St; [|discriminate]. injection St as <-. cbn [y_fed y_rti set_fed] in *.
    apply (pinv_fed fs ps s _ _ i H HI); [intros k n; rewrite !upd_neq by exact n; auto|]. rewrite !upd_eq. constructor; cbn; try discriminate. intros _. left. apply in_or_app. right. now left.
  - destruct (f_alive (fs i)) eqn:B in St; [|discriminate]. destruct (nth_error (r_sent (s i)) (f_rcvd (fs i))) as [m|] eqn:En; [|discriminate].
    assert (X : y_rti z = s /\ y_fed z = upd fs i (mkFed true (match m with MMsg t => t :: f_queue (fs i) | _ => f_queue (fs i) end) (f_cur (fs i)) (f_done (fs i)) (match m with MTag t => t | _ => f_grant (fs i) end) (f_promise (fs i)) (f_up (fs i)) (S (f_rcvd (fs i)))))
      by (destruct m; injection St as <-; split; reflexivity).
    destruct X as (X1 & X2). rewrite X1, X2 in *.
    pose proof (plocal_recv (fs i) (ps i) s i m _ _ (pi_local _ _ _ H i) B En eq_refl eq_refl) as L.
    apply (pinv_fed fs ps s _ _ i H HI); [intros j n; rewrite upd_neq by exact n; split; [reflexivity|destruct m; try reflexivity; apply upd_neq, n]|]. rewrite upd_eq. destruct m; rewrite ?upd_eq; exact L.
  - destruct (f_up (fs i)) as [|m rest] eqn:Eu in St; [discriminate|]. pose proof (tk_conn tp start _ _ (pi_inv _ _ _ H) i _ _ Eu) as C.
    destruct m as [t|t|t|j g o|]; cbn [rti_step] in St; rewrite ?C in St.
    + injection St as <-. cbn [y_fed y_rti]. apply pinv_take_net; [exact H|exact Eu].
    + injection St as <-. cbn [y_fed y_rti]. apply pinv_take_ltc; [exact H|exact Eu].
    + injection St as <-. cbn [y_fed y_rti]. apply pinv_take_rem; [exact H|exact Eu].
    + destruct (forward _ _ _ _ _ _) as [s'|] eqn:F in St; [|discriminate]. injection St as <-. cbn [y_fed y_rti]. eapply pinv_take_msg; [exact H|exact Eu|exact F].
    + injection St as <-. cbn [y_fed y_rti]. apply pinv_take_resign; [exact H|exact Eu].
Qed.
Lemma pinv_run l : forall y y', PInv (y_fed (p_sys y)) (p_fed y) (y_rti (p_sys y)) -> p_run tp start y l = Some y' -> PInv (y_fed (p_sys y')) (p_fed y') (y_rti (p_sys y')).
Proof.
  induction l as [|o l IH]; intros y y' H K; cbn [p_run] in K; [injection K as <-; exact H|]. destruct (p_step tp start y o) as [z|] eqn:E; [|discriminate]. apply (IH z y'); [eapply pinv_step; eassumption|exact K].
Qed.

(** ** The federation goes on *)
Definition zpath (k e : nat) : Prop := exists ds, upstream_path tp (fun _ => true) k ds e /\ forall d, In d ds -> d < 0.
Lemma zpath_trans a b c : zpath a b -> zpath b c -> zpath a c.
Proof. intros (d1 & P1 & Q1) (d2 & P2 & Q2). exists (d1 ++ d2). split; [eapply path_trans; eassumption|]. intros d Hd. apply in_app_or in Hd. destruct Hd; auto. Qed.
Lemma zpath_irrefl a : ~ zpath a a.
Proof. intros (ds & P & Q). destruct (Hz a ds P) as (d & Hd & L). specialize (Q d Hd). lia. Qed.

Lemma least_exists (R : nat -> nat -> Prop) : (forall a, ~ R a a) -> (forall a b c, R a b -> R b c -> R a c) -> forall l, l <> [] -> ~ ~ exists m, In m l /\ forall k, In k l -> ~ R k m.
Proof.
  intros Ir Tr. induction l as [|a l IH]; intros Hn; [congruence|]. intros No. destruct l as [|b l].
  - apply No. exists a. split; [now left|]. intros k [<-|[]]. apply Ir.
  - apply IH; [discriminate|]. intros (m & Hm & Lm). assert (Nr : ~ R a m).
    { intros Ra. apply No. exists a. split; [now left|]. intros k [<-|Hk]; [apply Ir|]. intros Rk. apply (Lm k Hk). eapply Tr; eassumption. }
    apply No. exists m. split; [now right|]. intros k [<-|Hk]; [exact Nr|apply Lm, Hk].
Qed.

Lemma next_spec f : (forall a, In a (f_queue f) -> tag_lt a FOREVER_TAG) -> is_next f (next_event f).
Proof.
  intros Hq. unfold is_next. change (next_event f) with (transit_peek (f_queue f)). destruct (f_queue f) as [|a q] eqn:E; [now left|]. right. rewrite <- E in *. split; [|intros x Hx; apply peek_le, Hx].
  destruct (peek_in (f_queue f)) as [K|K]; [|exact K]. exfalso. assert (Ha : In a (f_queue f)) by (rewrite E; now left). pose proof (peek_le _ _ Ha) as L. rewrite K in L. specialize (Hq a Ha). unfold FOREVER_TAG in *. tg; lia.
Qed.

Lemma go_on y : PInv (y_fed (p_sys y)) (p_fed y) (y_rti (p_sys y)) -> delivered tp (p_sys y) -> waiting tp y -> none_released tp (p_sys y) -> has_event tp (p_sys y) -> goes_on tp start y.
Proof.
  intros H D W G (i & Hi & Ai & Qi). destruct y as [[s fs] ps]. unfold waiting, none_released in *. cbn [p_sys p_fed y_fed y_rti] in *.
  assert (D1 : forall k, (k < tp_n tp)%nat -> f_up (fs k) = []) by (intros k Hk; apply (D k Hk)). assert (D2 : forall k, (k < tp_n tp)%nat -> f_alive (fs k) = true -> f_rcvd (fs k) = length (r_sent (s k))) by (intros k Hk; apply (D k Hk)).
  clear D. destruct H as [H1 H2 H3 H4 H5].
  assert (Sq : forall k a, f_alive (fs k) = true -> In a (f_queue (fs k)) -> small tp start a) by (intros k a A1 A2; apply (l_small _ _ _ _ _ (i_local _ _ _ _ H1 k)); split; [exact A1|now left]).
  assert (Nx : forall k, f_alive (fs k) = true -> is_next (fs k) (next_event (fs k))) by (intros k A1; apply next_spec; intros a A2; apply (small_forever tp start), (Sq k); assumption).
  set (can := fun k => f_alive (fs k) && negb (match f_queue (fs k) with [] => true | _ => false end) && (match tp_up tp k with [] => true | _ => tag_leb (next_event (fs k)) (f_grant (fs k)) end)).
  assert (Can : forall k, (k < tp_n tp)%nat -> can k = true -> goes_on tp start (mkPsys (mkSys s fs) ps)).
  { intros k Lk Hk. unfold can in Hk. rewrite !andb_true_iff in Hk. destruct Hk as ((B1 & B2) & B3). destruct (Nx k B1) as [(E & _)|(N1 & N2)]; [rewrite E in B2; discriminate|]. destruct (W k Lk B1) as (Ec & _).
    exists k, (next_event (fs k)). unfold p_step. cbn [p_allowed p_sys sys_step y_fed]. rewrite B1, Ec, B3.
    replace (existsb (tag_eqb (next_event (fs k))) (f_queue (fs k))) with true by (symmetry; apply existsb_exists; exists (next_event (fs k)); split; [exact N1|apply cmp_eq0; reflexivity]).
    replace (forallb (tag_leb (next_event (fs k))) (f_queue (fs k))) with true by (symmetry; apply forallb_forall; intros x Hx; apply cmp_le0, N2, Hx). cbn [andb]. eexists. reflexivity. }
  destruct (can i) eqn:Ci; [apply (Can i Hi Ci)|]. destruct (existsb can (seq 0 (tp_n tp))) eqn:Ex.
  { apply existsb_exists in Ex. destruct Ex as (k & Lk & Hk). apply in_seq in Lk. apply (Can k); [lia|exact Hk]. }
  exfalso. assert (No : forall k, (k < tp_n tp)%nat -> can k = false).
  { intros k Hk. destruct (can k) eqn:E; [|reflexivity]. rewrite <- Ex. symmetry. apply existsb_exists. exists k. split; [apply in_seq; lia|exact E]. }
  set (cand := filter (fun k => f_alive (fs k) && negb (match f_queue (fs k) with [] => true | _ => false end)) (seq 0 (tp_n tp))).
  assert (Pe : forall k g, (k < tp_n tp)%nat -> f_alive (fs k) = true -> ~ pend (fs k) (s k) g) by (intros k g Hk A1 K; unfold pend in K; rewrite (D2 k Hk A1), skipn_all in K; destruct K).
  (* a federate that cannot start has told the coordinator its next event *)
  assert (Told : forall k, (k < tp_n tp)%nat -> f_alive (fs k) = true -> f_queue (fs k) <> [] \/ tp_down tp k <> [] -> settled s k /\ r_next (s k) = next_event (fs k) /\ (f_queue (fs k) = [] \/ (tp_up tp k <> [] /\ tag_lt (f_grant (fs k)) (next_event (fs k))))).
  { intros k Hk A1 Hq. assert (X : f_queue (fs k) = [] \/ (tp_up tp k <> [] /\ tag_lt (f_grant (fs k)) (next_event (fs k)))).
    { pose proof (No k Hk) as N. unfold can in N. rewrite A1 in N. destruct (f_queue (fs k)) eqn:Eq; [now left|]. right. cbn [negb andb] in N. destruct (tp_up tp k) eqn:Eu; [discriminate|]. split; [discriminate|]. apply cmp_le0_false, N. }
    assert (Y : p_net (ps k) = Some (next_event (fs k))).
    { destruct (W k Hk A1) as (_ & Wk). destruct (Wk _ (Nx k A1)) as [L|L]; [|exact L]. exfalso. destruct X as [X|(_ & X)]; [|tg; lia]. destruct Hq as [Hq|Hq]; [contradiction|]. specialize (G k Hk A1 Hq). destruct (Nx k A1) as [(_ & E)|(K & _)]; [rewrite E in L; unfold FOREVER_TAG in *; tg; lia|rewrite X in K; destruct K]. }
    destruct (pl_net _ _ _ _ (H4 k) A1 _ Y) as (_ & [(l & K)|(_ & K1 & K2 & K3)]); [rewrite (D1 k Hk) in K; destruct l; discriminate|]. split; [exact K1|]. split; [|exact X].
    destruct K3 as [K3|[K3|K3]]; [exact K3| |destruct (Pe k _ Hk A1 K3)]. destruct (Nx k A1) as [(K & _)|(_ & K)]; [rewrite K in K3; destruct K3|]. apply tag_le_antisym; [exact K2|apply K, K3]. }
  assert (Idle : forall k, (k < tp_n tp)%nat -> tp_down tp k <> [] -> ~ In k cand -> r_next (s k) = FOREVER_TAG).
  { intros k Hk Hd Nc. destruct (f_alive (fs k)) eqn:A1.
    - destruct (Told k Hk A1 (or_intror Hd)) as (_ & -> & _). destruct (Nx k A1) as [(_ & E)|(K & _)]; [exact E|]. exfalso. apply Nc. apply filter_In. split; [apply in_seq; lia|]. rewrite A1. destruct (f_queue (fs k)); [destruct K|reflexivity].
    - destruct (pl_dead _ _ _ _ (H4 k) A1) as [K|(_ & K)]; [rewrite (D1 k Hk) in K; destruct K|exact K]. }
  assert (Ic : In i cand).
  { apply filter_In. assert (B : f_alive (fs i) && negb (match f_queue (fs i) with [] => true | _ => false end) = true) by (rewrite Ai; destruct (f_queue (fs i)); [congruence|reflexivity]). split; [apply in_seq; lia|exact B]. }
  set (R := fun a b => tag_lt (r_next (s a)) (r_next (s b)) \/ (r_next (s a) = r_next (s b) /\ zpath a b)).
  apply (least_exists R) with (l := cand).
  - intros a [K|(_ & K)]; [tg; lia|apply (zpath_irrefl a K)].
  - intros a b c [K|(K & Z1)] [L|(L & Z2)]; [left; eapply tag_lt_le_trans; [exact K|apply tag_lt_le, L]|left; rewrite <- L; exact K|left; rewrite K; exact L|right; split; [congruence|eapply zpath_trans; eassumption]].
  - intros K. rewrite K in Ic. destruct Ic.
  - intros (m & Hm & Lm). apply filter_In in Hm. destruct Hm as (Hm & Bm). apply in_seq in Hm. apply andb_true_iff in Bm. destruct Bm as (Am & Bm). assert (Qm : f_queue (fs m) <> []) by (intros Q0; rewrite Q0 in Bm; discriminate). destruct (Told m) as ((Ns & St) & En & Xm); [lia|exact Am|now left|].
    destruct Xm as [Xm|(Um & Gm)]; [rewrite Xm in Bm; discriminate|]. destruct (Nx m Am) as [(E & _)|(N1 & _)]; [rewrite E in Bm; discriminate|]. rewrite <- En in *. pose proof (Sq m _ Am N1) as Sm. pose proof (small_forever tp start _ Sm) as Fm.
    assert (Cm : r_connected (s m) = true) by (destruct (r_connected (s m)) eqn:C; [reflexivity|]; destruct (l_conn _ _ _ _ _ (i_local _ _ _ _ H1 m) C) as (K & _); congruence).
    assert (L : tag_le (r_next (s m)) (r_granted (s m))).
    { apply St; [exact Cm|exact Fm|]. intros k D Hin. destruct (H3 m k D Hin) as (HD & ds & P & Pt & ED). assert (Hk : (k < tp_n tp)%nat).
      { destruct Htp as (T1 & _). inversion P; eapply T1; eassumption. }
      assert (Hd : tp_down tp k <> []).
      { assert (Hv : exists v d, In (k, d) (tp_up tp v)) by (inversion P; eauto). destruct Hv as (v & d & Hv). intros K. assert (K1 : In v (tp_down tp k)) by (apply Hdown; eauto). rewrite K in K1. destruct K1. }
      assert (Hcase : In k cand \/ ~ In k cand) by (destruct (in_dec Nat.eq_dec k cand); auto). destruct Hcase as [Hc|Hc].
      - pose proof (Lm k Hc) as Lk. apply filter_In in Hc. destruct Hc as (_ & Bk). apply andb_true_iff in Bk. destruct Bk as (Ak & Bk). destruct (Told k Hk Ak (or_intror Hd)) as ((Nk & _) & Ek & _). destruct (Nx k Ak) as [(E & _)|(K1 & _)]; [rewrite E in Bk; discriminate|]. rewrite <- Ek in K1. pose proof (Sq k _ Ak K1) as Sk.
        assert (Ee : eff (s k) = r_next (s k)) by (unfold eff; replace (tag_eqb (r_next (s k)) NEVER_TAG) with false by (symmetry; apply eqb_false_neq, Nk); reflexivity). rewrite Ee.
        assert (Ok : tag_ok (r_next (s k))) by (apply (small_ok tp start Hs), Sk). assert (T0 : 0 <= ttime (r_next (s k))) by (destruct Sk; lia).
        assert (Tr : tag_lt (r_next (s k)) (r_next (s m)) \/ r_next (s k) = r_next (s m) \/ tag_lt (r_next (s m)) (r_next (s k))) by apply tag_lt_trichotomy. destruct Tr as [K|[K|K]].
        + exfalso. apply Lk. left. exact K.
        + rewrite <- K. apply tag_add_gt; try assumption; [apply (small_forever tp start), Sk|]. intros Z0. apply Lk. right. split; [exact K|]. exists ds. split; [exact P|apply zero_path; congruence].
        + eapply tag_lt_le_trans; [exact K|apply tag_add_ge; assumption].
      - pose proof (Idle k Hk Hd Hc) as E. unfold eff. rewrite E. change (tag_eqb FOREVER_TAG NEVER_TAG) with false. cbv iota. rewrite tag_add_forever by exact HD. exact Fm. }
    rewrite (H5 m Um) in L. rewrite (pl_grant _ _ _ _ (H4 m) Am), (D2 m (proj2 Hm) Am), firstn_all in Gm. tg; lia.
Qed.
End Progress.
