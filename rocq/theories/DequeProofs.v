From Verif Require Import Base Pqueue PqueueProofs Deque DequeSpec.
Open Scope nat_scope.

(** [ents] : the live nodes front to back, (address, value). *)
Fixpoint chain (h : nat -> option dnode) (prev : option (option nat)) (l : list (nat * nat)) : Prop :=
  match l with
  | [] => True
  | (a, v) :: r =>
      exists n, h a = Some n /\ n_val n = v /\
        (match prev with Some p => n_prev n = p | None => True end) /\
        (match r with [] => True | (b, _) :: _ => n_next n = Some b end) /\
        chain h (Some (Some a)) r
  end.
Definition dinv (d : deq) (l : list (nat * nat)) : Prop :=
  NoDup (map fst l) /\ chain (d_heap d) None l /\
  d_front d = hd_error (map fst l) /\ d_back d = hd_error (rev (map fst l)) /\ d_size d = length l /\
  (forall a n, d_heap d a = Some n -> In a (map fst l)).

Lemma chain_ext h h' : forall l p, (forall a, In a (map fst l) -> h a = h' a) -> chain h p l -> chain h' p l.
Proof.
  induction l as [|[a v] r IH]; intros p Hx H; [exact I|].
  destruct H as (n & Hn & Hv & Hp & Hnx & Hc). exists n.
  rewrite <- Hx by (left; reflexivity). repeat split; try assumption.
  apply IH; [|exact Hc]. intros b Hb. apply Hx. right; exact Hb.
Qed.

Lemma chain_weaken h l p : chain h p l -> chain h None l.
Proof. destruct l as [|[a v] r]; [trivial|]. intros (n & H1 & H2 & H3 & H4 & H5). exists n; repeat split; assumption. Qed.

Lemma chain_live h : forall l p a, chain h p l -> In a (map fst l) -> exists n, h a = Some n.
Proof.
  induction l as [|[b v] r IH]; intros p a H Hin; [destruct Hin|].
  destruct H as (n & Hn & _ & _ & _ & Hc). destruct Hin as [E|Hin].
  - cbn in E; subst. exists n; exact Hn.
  - exact (IH _ _ Hc Hin).
Qed.

(** Splitting a chain at its last element. *)
Lemma chain_snoc h : forall l p b w,
  chain h p (l ++ [(b, w)]) ->
  chain h p l /\ exists n, h b = Some n /\ n_val n = w /\
    (match rev l with [] => (match p with Some q => n_prev n = q | None => True end) | (a, _) :: _ => n_prev n = Some a end).
Proof.
  induction l as [|[a v] r IH]; intros p b w H.
  - destruct H as (n & Hn & Hv & Hp & _ & _). split; [exact I|]. exists n; repeat split; assumption.
  - cbn [app] in H. destruct H as (n & Hn & Hv & Hp & Hnx & Hc).
    destruct (IH _ _ _ Hc) as (Hc' & m & Hm & Hw & Hpr).
    split.
    + exists n. repeat split; try assumption. destruct r as [|[c u] r']; [exact I|exact Hnx].
    + exists m. repeat split; try assumption. cbn [rev].
      destruct (rev r) as [|[c u] r']; cbn [app]; exact Hpr.
Qed.

(** Appending at the back: the old last node's [next] is redirected. *)
Lemma chain_push_back h : forall l p b w a v nb na,
  NoDup (map fst (l ++ [(b, w)])) -> ~ In a (map fst (l ++ [(b, w)])) ->
  chain h p (l ++ [(b, w)]) -> h b = Some nb ->
  n_prev na = Some b -> n_val na = v ->
  chain (upd (upd h b (Some (mkNode (Some a) (n_prev nb) (n_val nb)))) a (Some na)) p ((l ++ [(b, w)]) ++ [(a, v)]).
Proof.
  induction l as [|[c u] r IH]; intros p b w a v nb na Hnd Hni H Hb Hp Hv; cbn [app] in *.
  - destruct H as (n & Hn & Hw & Hpv & _ & _). replace n with nb in * by congruence.
    assert (Hab : a <> b) by (intros ->; apply Hni; left; reflexivity).
    exists (mkNode (Some a) (n_prev nb) (n_val nb)).
    rewrite upd_neq by congruence. rewrite upd_eq. repeat split; try assumption.
    exists na. rewrite upd_eq. repeat split; assumption.
  - destruct H as (n & Hn & Hw & Hpv & Hnx & Hc).
    cbn [map fst] in Hnd. apply NoDup_cons_iff in Hnd as [Hc0 Hnd].
    assert (Hca : c <> a) by (intros ->; apply Hni; left; reflexivity).
    assert (Hcb : c <> b). { intros ->; apply Hc0. rewrite map_app, in_app_iff. right; left; reflexivity. }
    exists n. rewrite upd_neq by congruence. rewrite upd_neq by congruence. repeat split; try assumption.
    + destruct r as [|[e f] r']; exact Hnx.
    + apply IH; try assumption. intros Hin; apply Hni; right; exact Hin.
Qed.

Lemma hd_rev_snoc {A} (l : list A) x : hd_error (rev (l ++ [x])) = Some x.
Proof. rewrite rev_app_distr. reflexivity. Qed.

Lemma list_snoc {A} (l : list A) : l = [] \/ exists r x, l = r ++ [x].
Proof.
  induction l as [|x l IH] using rev_ind; [left; reflexivity|right; exists l, x; reflexivity].
Qed.

Ltac leak Hlk :=
  let x := fresh "x" in let m := fresh "m" in let Hx := fresh "Hx" in
  intros x m Hx; cbn [put d_heap] in Hx; unfold upd in Hx;
  repeat match type of Hx with context [Nat.eqb x ?y] => destruct (Nat.eqb_spec x y); [subst x|] end;
  try discriminate; try (apply Hlk in Hx);
  rewrite ?map_app, ?in_app_iff in *; cbn [map fst In app] in *; intuition congruence.

Lemma push_front_ok d l a v : dinv d l -> d_heap d a = None ->
  exists d', deq_push_front d a v = Ok d' /\ dinv d' ((a, v) :: l).
Proof.
  intros (Hnd & Hc & Hf & Hb & Hs & Hlk) Ha. unfold deq_push_front. cbn [put d_front].
  destruct l as [|[f w] r].
  - cbn in Hf. rewrite Hf. eexists; split; [reflexivity|].
    repeat split; cbn.
    + constructor; [intros []|constructor].
    + exists (mkNode None None v). rewrite upd_eq. repeat split.
    + leak Hlk.
  - assert (Hna : ~ In a (map fst ((f, w) :: r))).
    { intros Hin. destruct (chain_live _ _ _ _ Hc Hin) as [n Hn]. congruence. }
    cbn in Hf. rewrite Hf. destruct Hc as (n & Hn & Hv & _ & Hnx & Hc).
    assert (Hfa : f <> a) by congruence.
    unfold deref. cbn [put d_heap]. rewrite upd_neq by congruence. rewrite Hn. cbn [bind].
    rewrite upd_neq by congruence. rewrite upd_eq. cbn [bind].
    eexists; split; [reflexivity|]. repeat split; cbn [d_heap d_front d_back d_size n_prev n_val].
    + cbn [map fst]. constructor; assumption.
    + exists (mkNode (Some f) None v). rewrite upd_eq. repeat split.
      exists (mkNode (n_next n) (Some a) (n_val n)). rewrite upd_neq by congruence. rewrite upd_eq.
      repeat split; try assumption.
      eapply chain_ext; [|exact Hc]. intros b Hb'.
      cbn [map fst] in Hnd, Hna. apply NoDup_cons_iff in Hnd as [Hf0 Hnd].
      rewrite !upd_neq; try reflexivity; intros ->; try (apply Hna; right; exact Hb'); contradiction.
    + cbn [map fst]. cbn [put d_back]. rewrite Hb. cbn [map fst rev].
      destruct (rev (map fst r)) as [|x y]; reflexivity.
    + cbn [put d_size length]. rewrite Hs. reflexivity.
    + leak Hlk.
Qed.

Lemma push_back_ok d l a v : dinv d l -> d_heap d a = None ->
  exists d', deq_push_back d a v = Ok d' /\ dinv d' (l ++ [(a, v)]).
Proof.
  intros (Hnd & Hc & Hf & Hb & Hs & Hlk) Ha. unfold deq_push_back. cbn [put d_back].
  destruct (list_snoc l) as [->|(r & [b w] & ->)].
  - cbn in Hb. rewrite Hb. eexists; split; [reflexivity|].
    repeat split; cbn.
    + constructor; [intros []|constructor].
    + exists (mkNode None None v). rewrite upd_eq. repeat split.
    + cbn in Hs. rewrite Hs; reflexivity.
    + leak Hlk.
  - assert (Hna : ~ In a (map fst (r ++ [(b, w)]))).
    { intros Hin. destruct (chain_live _ _ _ _ Hc Hin) as [n Hn]. congruence. }
    rewrite map_app in Hb. cbn [map fst] in Hb. rewrite hd_rev_snoc in Hb. rewrite Hb.
    destruct (chain_snoc _ _ _ _ _ Hc) as (_ & n & Hn & Hv & _).
    assert (Hfa : b <> a) by congruence.
    unfold deref. cbn [put d_heap]. rewrite upd_neq by congruence. rewrite Hn. cbn [bind].
    rewrite upd_neq by congruence. rewrite upd_eq. cbn [bind].
    eexists; split; [reflexivity|]. repeat split; cbn [d_heap d_front d_back d_size n_next n_val].
    + rewrite map_app. cbn [map fst].
      apply NoDup_rev in Hnd. rewrite <- (rev_involutive (map fst (r ++ [(b, w)]) ++ [a])).
      apply NoDup_rev. rewrite rev_app_distr. cbn [rev app]. constructor; [|exact Hnd].
      rewrite <- in_rev. exact Hna.
    + eapply chain_ext; [|apply (chain_push_back _ _ _ _ _ a v n (mkNode None (Some b) v) Hnd Hna Hc Hn eq_refl eq_refl)].
      intros x _. cbn [put d_heap]. unfold upd.
      destruct (Nat.eqb_spec x a), (Nat.eqb_spec x b); subst; try reflexivity; congruence.
    + cbn [put d_front]. rewrite Hf. rewrite !map_app. destruct r as [|[c u] r]; reflexivity.
    + rewrite map_app. cbn [map fst]. rewrite hd_rev_snoc. reflexivity.
    + cbn [put d_size]. rewrite Hs. rewrite !app_length. cbn [length]. lia.
    + leak Hlk.
Qed.

Lemma same_ptr_single (l : list (nat * nat)) a v : NoDup (map fst ((a, v) :: l)) ->
  same_ptr (hd_error (map fst ((a, v) :: l))) (hd_error (rev (map fst ((a, v) :: l)))) =
  match l with [] => true | _ => false end.
Proof.
  intros Hnd. cbn [map fst hd_error].
  destruct (list_snoc l) as [->|(r & [b w] & ->)].
  - cbn. apply Nat.eqb_refl.
  - rewrite map_app. cbn [map fst]. rewrite app_comm_cons, hd_rev_snoc. cbn [same_ptr].
    replace (a =? b) with false; [destruct r; reflexivity|].
    symmetry; apply Nat.eqb_neq. intros ->. cbn [map fst] in Hnd. apply NoDup_cons_iff in Hnd as [H _].
    apply H. rewrite map_app, in_app_iff. right; left; reflexivity.
Qed.

Lemma pop_front_ok d l : dinv d l ->
  exists d', deq_pop_front d = Ok (d', hd_error (map snd l)) /\ dinv d' (tl l).
Proof.
  intros (Hnd & Hc & Hf & Hb & Hs & Hlk). unfold deq_pop_front.
  destruct l as [|[f w] r].
  - cbn in Hf. rewrite Hf. exists d. split; [reflexivity|]. repeat split; assumption.
  - pose proof (same_ptr_single r f w Hnd) as Hsp. rewrite Hf, Hb, Hsp. cbn [map fst hd_error].
    destruct Hc as (n & Hn & Hv & _ & Hnx & Hc).
    unfold deref. rewrite Hn. cbn [bind].
    cbn [map fst] in Hnd. apply NoDup_cons_iff in Hnd as [Hf0 Hnd].
    assert (Hcf : chain (upd (d_heap d) f None) None r).
    { apply chain_weaken with (p := Some (Some f)). eapply chain_ext; [|exact Hc].
      intros b Hb'. rewrite upd_neq; [reflexivity|]. intros ->; contradiction. }
    unfold dfree. destruct r as [|[c u] r]; cbn [d_heap]; rewrite Hn; cbn [bind d_size];
      rewrite Hs; cbn [length Nat.eqb]; (eexists; split; [cbn [map snd hd_error]; rewrite Hv; reflexivity|]);
      repeat split; cbn [d_heap d_front d_back d_size tl]; try assumption; try lia; try solve [leak Hlk].
    cbn [map fst rev]. destruct (rev (map fst r)) as [|x y]; reflexivity.
Qed.

Lemma hd_rev_map_snoc (r : list (nat * nat)) b w : hd_error (rev (map fst (r ++ [(b, w)]))) = Some b.
Proof. rewrite map_app. cbn [map fst]. apply hd_rev_snoc. Qed.

Lemma pop_back_ok d l : dinv d l ->
  exists d', deq_pop_back d = Ok (d', last_opt (map snd l)) /\ dinv d' (removelast l).
Proof.
  intros (Hnd & Hc & Hf & Hb & Hs & Hlk). unfold deq_pop_back.
  destruct (list_snoc l) as [->|(r & [b w] & ->)].
  - cbn in Hb. rewrite Hb. exists d. split; [reflexivity|]. repeat split; assumption.
  - assert (Hsp : same_ptr (d_front d) (d_back d) = match r with [] => true | _ => false end).
    { rewrite Hf, Hb. destruct r as [|[a v] r]; cbn [app].
      - apply (same_ptr_single [] b w Hnd).
      - pose proof (same_ptr_single (r ++ [(b, w)]) a v Hnd) as E. rewrite E. destruct r; reflexivity. }
    rewrite Hb, hd_rev_map_snoc in *. rewrite Hsp. unfold deref.
    destruct (chain_snoc _ _ _ _ _ Hc) as (Hcr & n & Hn & Hv & Hpr).
    rewrite Hn. cbn [bind].
    rewrite map_app in Hnd. cbn [map fst] in Hnd.
    assert (Hnd2 : NoDup (map fst r) /\ ~ In b (map fst r)).
    { pose proof (NoDup_rev Hnd) as Hr. rewrite rev_app_distr in Hr. cbn [rev app] in Hr.
      apply NoDup_cons_iff in Hr as [H1 H2]. split.
      - rewrite <- (rev_involutive (map fst r)). apply NoDup_rev; exact H2.
      - rewrite in_rev. exact H1. }
    destruct Hnd2 as [Hnr Hbr].
    assert (Hcf : chain (upd (d_heap d) b None) None r).
    { eapply chain_ext; [|exact Hcr].
      intros x Hx. rewrite upd_neq; [reflexivity|]. intros ->; contradiction. }
    rewrite removelast_last. rewrite app_length in Hs. cbn [length] in Hs.
    unfold last_opt. rewrite map_app. cbn [map snd]. rewrite hd_rev_snoc.
    unfold dfree. destruct r as [|[c u] r]; cbn [d_heap]; rewrite Hn; cbn [bind d_size];
      (destruct (Nat.eqb_spec (d_size d) 0); [lia|]);
      (eexists; split; [rewrite Hv; reflexivity|]);
      repeat split; cbn [d_heap d_front d_back d_size]; try assumption; try (cbn [length] in *; lia); try solve [leak Hlk].
    destruct (list_snoc ((c, u) :: r)) as [E|(r' & [e x] & E)]; [discriminate|].
    rewrite E in *. rewrite hd_rev_map_snoc. rewrite rev_app_distr in Hpr. exact Hpr.
Qed.

Lemma peek_front_ok d l : dinv d l -> deq_peek_front d = Ok (hd_error (map snd l)).
Proof.
  intros (Hnd & Hc & Hf & Hb & Hs & Hlk). unfold deq_peek_front. rewrite Hf.
  destruct l as [|[f w] r]; [reflexivity|]. cbn [map fst hd_error].
  destruct Hc as (n & Hn & Hv & _). unfold deref. rewrite Hn. cbn. rewrite Hv. reflexivity.
Qed.
Lemma peek_back_ok d l : dinv d l -> deq_peek_back d = Ok (last_opt (map snd l)).
Proof.
  intros (Hnd & Hc & Hf & Hb & Hs & Hlk). unfold deq_peek_back. rewrite Hb.
  destruct (list_snoc l) as [->|(r & [b w] & ->)]; [reflexivity|].
  rewrite hd_rev_map_snoc. destruct (chain_snoc _ _ _ _ _ Hc) as (_ & n & Hn & Hv & _).
  unfold deref. rewrite Hn. cbn [bind]. unfold last_opt. rewrite map_app. cbn [map snd]. rewrite hd_rev_snoc, Hv. reflexivity.
Qed.

Lemma map_removelast {A B} (f : A -> B) l : map f (removelast l) = removelast (map f l).
Proof.
  destruct (list_snoc l) as [->|(r & x & ->)]; [reflexivity|].
  rewrite removelast_last, map_app. cbn [map]. rewrite removelast_last. reflexivity.
Qed.

Lemma deq_step_ok d l o : dinv d l -> alloc_ok d o ->
  exists d' l', deq_step d o = Ok (d', snd (dspec (map snd l) o)) /\ dinv d' l' /\ map snd l' = fst (dspec (map snd l) o).
Proof.
  intros Hd Ha. destruct o as [a v|a v| | | | | |]; cbn [deq_step dspec fst snd].
  - destruct (push_front_ok d l a v Hd Ha) as (d' & E & Hi). rewrite E. eexists _, _; split; [reflexivity|]. split; [exact Hi|reflexivity].
  - destruct (push_back_ok d l a v Hd Ha) as (d' & E & Hi). rewrite E. eexists _, _; split; [reflexivity|]. split; [exact Hi|].
    rewrite map_app; reflexivity.
  - destruct (pop_front_ok d l Hd) as (d' & E & Hi). rewrite E. eexists _, _; split; [reflexivity|]. split; [exact Hi|]. destruct l; reflexivity.
  - destruct (pop_back_ok d l Hd) as (d' & E & Hi). rewrite E. eexists _, _; split; [reflexivity|]. split; [exact Hi|]. apply map_removelast.
  - rewrite (peek_front_ok d l Hd). eexists _, _; split; [reflexivity|]. split; [exact Hd|reflexivity].
  - rewrite (peek_back_ok d l Hd). eexists _, _; split; [reflexivity|]. split; [exact Hd|reflexivity].
  - exists d, l. destruct Hd as (H1 & H2 & H3 & H4 & Hs & Hlk). rewrite Hs, map_length. repeat split; assumption.
  - exists d, l. split; [|split; [exact Hd|reflexivity]]. destruct Hd as (H1 & H2 & H3 & H4 & Hs & Hlk).
    unfold deq_is_empty. rewrite H3. destruct l; reflexivity.
Qed.

Lemma deq_run_ok : forall ops d l, dinv d l -> allocs_ok d ops ->
  exists d' l', deq_run d ops = Ok (d', snd (dspec_run (map snd l) ops)) /\ dinv d' l' /\
    map snd l' = fst (dspec_run (map snd l) ops).
Proof.
  induction ops as [|o os IH]; intros d l Hd Ha.
  - exists d, l. repeat split; apply Hd.
  - destruct Ha as [Ho Ha]. destruct (deq_step_ok d l o Hd Ho) as (d1 & l1 & E & Hd1 & Hl1).
    rewrite E in Ha. cbn [fst] in Ha. destruct (IH d1 l1 Hd1 Ha) as (d2 & l2 & E2 & Hd2 & Hl2).
    cbn [deq_run]. rewrite E. cbn [bind fst snd]. rewrite E2. cbn [bind fst snd dspec_run]. rewrite <- Hl1.
    exists d2, l2. split; [reflexivity|]. split; assumption.
Qed.

