From Verif Require Import Base Tag TagSpec TagProofs Pqueue PqueueSpec PqueueProofs PqueueTag PqueueTagSpec.
From Coq Require Import Permutation.
Open Scope nat_scope.

Lemma tcmp_ok tg : cmp_ok (tcmp tg).
Proof.
  constructor; unfold tcmp.
  - intros a b H. rewrite tag_compare_gt in *. unfold tag_lt in *; lia.
  - intros a b c H. rewrite !tag_compare_gt in *. unfold tag_lt in *; lia.
Qed.
Lemma tcmp_cmp3 tg : cmp3 (tcmp tg).
Proof.
  intros a b. unfold tcmp. rewrite !tag_compare_gt, tag_compare_eq. split.
  - intros ->. split; apply tag_lt_irrefl.
  - intros [H1 H2]. destruct (tag_lt_trichotomy (tg a) (tg b)) as [H|[H|H]]; tauto.
Qed.

Lemma inv_cmp_ext c1 c2 q : (forall a b, In a (qel q) -> In b (qel q) -> c1 a b = c2 a b) ->
  inv c1 q -> inv c2 q.
Proof.
  intros Hc [Hsz Hst Hl Hnd Hpo Hor]. constructor; try assumption.
  intros j Hj. rewrite <- Hc; [apply Hor; assumption| |]; apply content_in; eexists; split; try reflexivity; lia.
Qed.

Record tinv (s : tq) : Prop := {
  ti_inv : inv (tcmp (tq_tag s)) (tq_q s);
  ti_fresh : forall e, In e (qel (tq_q s)) -> e < tq_next s
}.
Lemma tq_tags_qel s : tinv s -> tq_tags s = map (tq_tag s) (qel (tq_q s)).
Proof. intros H. unfold tq_tags. rewrite (elems_qel _ _ (ti_inv _ H)). reflexivity. Qed.

Lemma tq_init_inv n : tinv (tq_init n) /\ tq_tags (tq_init n) = [].
Proof.
  destruct (init_inv (tcmp (fun _ => NEVER_TAG)) n (fun _ => 0)) as [H E].
  split; [|reflexivity]. constructor; cbn [tq_init tq_q tq_tag tq_next].
  - exact H.
  - rewrite E; contradiction.
Qed.

Lemma upd_fresh_inv s t : tinv s -> inv (tcmp (upd (tq_tag s) (tq_next s) t)) (tq_q s).
Proof.
  intros [Hi Hf]. eapply inv_cmp_ext; [|exact Hi].
  intros a b Ha Hb. unfold tcmp. apply Hf in Ha, Hb. rewrite !upd_neq by lia. reflexivity.
Qed.
Lemma map_upd_fresh s t : tinv s -> map (upd (tq_tag s) (tq_next s) t) (qel (tq_q s)) = map (tq_tag s) (qel (tq_q s)).
Proof.
  intros [Hi Hf]. apply map_ext_in. intros e He. apply Hf in He. apply upd_neq; lia.
Qed.

Lemma insert_tag_spec s t : tinv s ->
  exists s', tq_insert_tag s t = Ok (s', 0%Z) /\ tinv s' /\ Permutation (tq_tags s') (t :: tq_tags s).
Proof.
  intros Hs. unfold tq_insert_tag.
  pose proof (upd_fresh_inv s t Hs) as Hi.
  destruct (insert_spec _ (tcmp_ok _) (tq_q s) (tq_next s) Hi) as (q' & E & Hi' & P & _).
  { intros Hin. apply (ti_fresh _ Hs) in Hin; lia. }
  rewrite E. cbn [bind].
  set (s' := mkTq _ _ _).
  assert (Hs' : tinv s').
  { constructor; cbn [s' tq_q tq_tag tq_next]; [exact Hi'|].
    intros e He. apply (Permutation_in _ P) in He. destruct He as [<-|He]; [lia|].
    apply (ti_fresh _ Hs) in He; lia. }
  exists s'. split; [reflexivity|]. split; [exact Hs'|].
  rewrite (tq_tags_qel s' Hs'), (tq_tags_qel s Hs). cbn [s' tq_q tq_tag].
  eapply Permutation_trans; [apply Permutation_map; exact P|].
  cbn [map]. rewrite upd_eq, map_upd_fresh by assumption. apply Permutation_refl.
Qed.

Lemma find_with_tag_spec s t : tinv s ->
  exists r, tq_find_with_tag s t = Ok r /\ match r with Some _ => In t (tq_tags s) | None => ~ In t (tq_tags s) end.
Proof.
  intros Hs. unfold tq_find_with_tag.
  pose proof (upd_fresh_inv s t Hs) as Hi.
  set (tg := upd (tq_tag s) (tq_next s) t) in *.
  destruct (find_spec _ (tcmp_ok _) (tq_q s) (fun c => (tcmp tg c (tq_next s) =? 0)%Z) (tq_next s) Hi) as (r & E & H).
  { intros c Hc. apply Z.eqb_eq; exact Hc. } { apply tcmp_cmp3. }
  unfold pq_find_same. rewrite E. exists r. split; [reflexivity|].
  assert (Hkey : tg (tq_next s) = t) by apply upd_eq.
  rewrite (tq_tags_qel s Hs), <- (map_upd_fresh s t Hs). fold tg.
  destruct r as [x|].
  - destruct H as [Hin Hx]. apply Z.eqb_eq in Hx. unfold tcmp in Hx. apply tag_compare_eq in Hx.
    rewrite Hkey in Hx. rewrite <- Hx. apply in_map; exact Hin.
  - intros Hin. apply in_map_iff in Hin as (e & Ee & He). apply H in He.
    apply Z.eqb_neq in He. apply He. unfold tcmp. apply tag_compare_eq. congruence.
Qed.

Lemma tcmp_min tg e (l : list elem) : (forall x, In x l -> tcmp tg e x <> 1%Z) ->
  forall y, In y (map tg l) -> tag_le (tg e) y.
Proof.
  intros H y Hy. apply in_map_iff in Hy as (x & <- & Hx). apply H in Hx. unfold tcmp in Hx.
  rewrite tag_compare_gt in Hx. apply tag_not_lt; exact Hx.
Qed.

Lemma peek_tag_spec s : tinv s ->
  exists x, tq_peek_tag s = Ok x /\
    ((tq_tags s = [] /\ x = FOREVER_TAG) \/ (In x (tq_tags s) /\ forall y, In y (tq_tags s) -> tag_le x y)).
Proof.
  intros Hs. unfold tq_peek_tag. rewrite (tq_tags_qel s Hs).
  destruct (peek_spec _ (tcmp_ok _) (tq_q s) (ti_inv _ Hs)) as [(_ & E & Hq)|(e & E & Hin & _ & Hmin)]; rewrite E; cbn [bind].
  - eexists; split; [reflexivity|]. left. rewrite Hq. split; reflexivity.
  - eexists; split; [reflexivity|]. right. split; [apply in_map; exact Hin|].
    apply tcmp_min; exact Hmin.
Qed.

Lemma pop_tag_spec s : tinv s ->
  exists s' x, tq_pop_tag s = Ok (s', x) /\ tinv s' /\
    ((tq_tags s = [] /\ tq_tags s' = [] /\ x = FOREVER_TAG) \/
     (Permutation (tq_tags s) (x :: tq_tags s') /\ (forall y, In y (tq_tags s) -> tag_le x y) /\
      tq_size s = S (tq_size s'))).
Proof.
  intros Hs. unfold tq_pop_tag.
  pose proof (inv_size _ _ (ti_inv _ Hs)) as Hsz.
  destruct (Nat.eq_dec (pq_size (tq_q s)) 1) as [E|n].
  - rewrite pop_empty by assumption. cbn [bind fst snd].
    assert (Hs' : tinv (mkTq (tq_q s) (tq_tag s) (tq_next s))) by (destruct Hs; constructor; assumption).
    eexists _, _; split; [reflexivity|]. split; [exact Hs'|]. left.
    rewrite (tq_tags_qel _ Hs'), (tq_tags_qel s Hs). cbn [tq_q tq_tag]. unfold qel. rewrite E.
    repeat split.
  - destruct (pop_spec _ (tcmp_ok _) (tq_q s) (ti_inv _ Hs)) as (q' & e & E & Hi & P & Hmin & Hsz' & _); [lia|].
    rewrite E. cbn [bind fst snd].
    set (s' := mkTq _ _ _).
    assert (Hs' : tinv s').
    { constructor; cbn [s' tq_q tq_tag tq_next]; [exact Hi|].
      intros x Hx. apply (ti_fresh _ Hs). apply (Permutation_in _ (Permutation_sym P)). right; exact Hx. }
    eexists s', _; split; [reflexivity|]. split; [exact Hs'|]. right.
    rewrite (tq_tags_qel s' Hs'), (tq_tags_qel s Hs). cbn [s' tq_q tq_tag]. split.
    + apply (Permutation_map (tq_tag s)) in P. exact P.
    + split; [apply tcmp_min; exact Hmin|].
      unfold tq_size, pq_count; cbn [s' tq_q]. lia.
Qed.

Lemma remove_loop_spec : forall fuel s head t, tinv s -> tq_size s < fuel ->
  ((tq_tags s = [] /\ head = FOREVER_TAG) \/ (In head (tq_tags s) /\ forall y, In y (tq_tags s) -> tag_le head y)) ->
  exists s', remove_up_to_loop fuel s head t = Ok s' /\ tinv s' /\
    exists removed, Permutation (tq_tags s) (removed ++ tq_tags s') /\
      (forall x, In x removed -> passed t x) /\ (forall x, In x (tq_tags s') -> ~ passed t x).
Proof.
  induction fuel as [|fuel IH]; intros s head t Hs Hf Hh; [lia|].
  cbn [remove_up_to_loop].
  destruct ((tag_compare head FOREVER_TAG <? 0)%Z && (tag_compare head t <=? 0)%Z) eqn:E.
  - apply andb_true_iff in E as [E1 E2].
    assert (H1 : tag_lt head FOREVER_TAG) by (apply tag_compare_lt; destruct (tag_compare_range head FOREVER_TAG); lia).
    assert (H2 : tag_le head t) by (apply tag_compare_le; lia).
    destruct Hh as [[_ ->]|[Hin Hmin]]; [exfalso; exact (tag_lt_irrefl _ H1)|].
    destruct (pop_tag_spec s Hs) as (s1 & x & Ep & Hs1 & Hc). rewrite Ep. cbn [bind fst snd].
    destruct Hc as [(En & _)|(P & Hx & Hsz)]; [rewrite En in Hin; contradiction|].
    destruct (peek_tag_spec s1 Hs1) as (h & Ek & Hk). rewrite Ek. cbn [bind].
    destruct (IH s1 h t Hs1 ltac:(lia) Hk) as (s' & Er & Hs' & removed & P' & Hr & Hn).
    exists s'. split; [exact Er|]. split; [exact Hs'|].
    exists (x :: removed). split.
    { eapply Permutation_trans; [exact P|]. cbn. constructor; exact P'. }
    split; [|exact Hn].
    intros y [<-|Hy]; [|apply Hr; exact Hy].
    assert (x = head) as ->.
    { apply tag_le_antisym; [apply Hx; exact Hin|]. apply Hmin.
      apply (Permutation_in _ (Permutation_sym P)); left; reflexivity. }
    split; assumption.
  - exists s. split; [reflexivity|]. split; [exact Hs|].
    exists []. split; [apply Permutation_refl|]. split; [contradiction|].
    intros x Hx [Hp1 Hp2].
    apply andb_false_iff in E.
    destruct Hh as [[En _]|[Hin Hmin]]; [rewrite En in Hx; contradiction|].
    apply Hmin in Hx.
    destruct E as [E|E].
    + assert (H : ~ tag_lt head FOREVER_TAG) by (rewrite <- tag_compare_lt; lia).
      apply H. exact (tag_le_lt_trans _ _ _ Hx Hp2).
    + assert (H : ~ tag_le head t) by (rewrite <- tag_compare_le; lia).
      apply H. exact (tag_le_trans _ _ _ Hx Hp1).
Qed.

Lemma tq_step_spec s o : tinv s ->
  exists s' out, tq_step s o = Ok (s', out) /\ tinv s' /\ tq_spec (tq_tags s) o (tq_tags s') out.
Proof.
  intros Hs. destruct o as [t|t| | |t|]; cbn [tq_step].
  - destruct (insert_tag_spec s t Hs) as (s' & E & Hs' & P). rewrite E. cbn.
    eexists _, _; split; [reflexivity|]. split; [exact Hs'|split; [reflexivity|exact P]].
  - unfold tq_insert_if_no_match.
    destruct (find_with_tag_spec s t Hs) as (r & E & H). rewrite E. cbn [bind].
    destruct r as [x|].
    + cbn. eexists _, _; split; [reflexivity|]. split; [exact Hs|]. left; repeat split; exact H.
    + destruct (insert_tag_spec s t Hs) as (s' & E' & Hs' & P). rewrite E'. cbn.
      eexists _, _; split; [reflexivity|]. split; [exact Hs'|]. right; repeat split; assumption.
  - destruct (peek_tag_spec s Hs) as (x & E & H). rewrite E. cbn.
    eexists _, _; split; [reflexivity|]. split; [exact Hs|]. split; [reflexivity|exact H].
  - destruct (pop_tag_spec s Hs) as (s' & x & E & Hs' & H). rewrite E. cbn.
    eexists _, _; split; [reflexivity|]. split; [exact Hs'|].
    destruct H as [H|(P & Hm & _)]; [left; exact H|right; split; assumption].
  - unfold tq_remove_up_to. destruct (peek_tag_spec s Hs) as (h & E & H). rewrite E. cbn [bind].
    destruct (remove_loop_spec (S (tq_size s)) s h t Hs ltac:(lia) H) as (s' & E' & Hs' & Hr).
    rewrite E'. cbn. eexists _, _; split; [reflexivity|]. split; [exact Hs'|exact Hr].
  - eexists _, _; split; [reflexivity|]. split; [exact Hs|]. cbn. split; [reflexivity|].
    rewrite (tq_tags_qel s Hs), map_length. unfold tq_size, pq_count, qel. rewrite content_length; reflexivity.
Qed.

Lemma tq_run_spec : forall ops s, tinv s ->
  exists s' outs, tq_run s ops = Ok (s', outs) /\ tinv s' /\ tq_spec_run (tq_tags s) ops (tq_tags s') outs.
Proof.
  induction ops as [|o os IH]; intros s Hs.
  - exists s, []. split; [reflexivity|]. split; [exact Hs|constructor].
  - destruct (tq_step_spec s o Hs) as (s1 & out & E & Hs1 & H1).
    destruct (IH s1 Hs1) as (s2 & outs & E2 & Hs2 & H2).
    exists s2, (out :: outs). cbn [tq_run]. rewrite E. cbn [bind fst snd]. rewrite E2. cbn [bind fst snd].
    split; [reflexivity|]. split; [exact Hs2|]. econstructor; eassumption.
Qed.

(** With [insert_if_no_match] as the only insertion no tag is stored twice. *)
Definition no_plain_insert (o : tqop) : Prop := match o with TInsert _ => False | _ => True end.
Lemma tq_spec_nodup s o s' out : no_plain_insert o -> tq_spec s o s' out -> NoDup s -> NoDup s'.
Proof.
  intros Ho H Hn. destruct o as [t|t| | |t|], out as [z|x|n|]; cbn in Ho, H; try contradiction.
  - destruct H as [(_ & _ & ->)|(Hni & _ & P)]; [exact Hn|].
    apply (Permutation_NoDup (Permutation_sym P)). constructor; assumption.
  - destruct H as [-> _]; exact Hn.
  - destruct H as [(_ & -> & _)|(P & _)]; [constructor|].
    apply (Permutation_NoDup P) in Hn. apply NoDup_cons_iff in Hn as [_ Hn]; exact Hn.
  - destruct H as (r & P & _). apply (Permutation_NoDup P) in Hn.
    clear -Hn. induction r as [|a r IH]; [exact Hn|]. apply NoDup_cons_iff in Hn as [_ Hn]. apply IH; exact Hn.
  - destruct H as [-> _]; exact Hn.
Qed.
Lemma tq_spec_run_nodup s ops s' outs : tq_spec_run s ops s' outs -> Forall no_plain_insert ops -> NoDup s -> NoDup s'.
Proof.
  induction 1 as [|s o s1 out os s2 outs H H' IH]; intros Hf Hn; [exact Hn|].
  apply Forall_cons_iff in Hf as [Ho Hf]. apply IH; [exact Hf|]. eapply tq_spec_nodup; eassumption.
Qed.
