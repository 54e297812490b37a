(** Proofs about the barrier on the advancement of tags. *)
From Verif Require Import Base Tag TagSpec TagProofs TagBarrier TagBarrierSpec.

Lemma cmp_lt0 a b : (tag_compare a b <? 0) = true <-> tag_lt a b.
Proof. rewrite Z.ltb_lt, <- tag_compare_lt. destruct (tag_compare_range a b) as [K|[K|K]]; lia. Qed.
Lemma cmp_gt0 a b : (0 <? tag_compare a b) = true <-> tag_lt b a.
Proof. rewrite Z.ltb_lt, <- tag_compare_gt. destruct (tag_compare_range a b) as [K|[K|K]]; lia. Qed.
Lemma cmp_ge0 a b : (0 <=? tag_compare a b) = true <-> tag_le b a.
Proof. rewrite Z.leb_le. apply tag_compare_ge. Qed.
Lemma cmp_le0 a b : (tag_compare a b <=? 0) = true <-> tag_le a b.
Proof. rewrite Z.leb_le. apply tag_compare_le. Qed.
Lemma cmp_lt0f a b : (tag_compare a b <? 0) = false <-> tag_le b a.
Proof. rewrite Z.ltb_ge. apply tag_compare_ge. Qed.
Lemma cmp_gt0f a b : (0 <? tag_compare a b) = false <-> tag_le a b.
Proof. rewrite Z.ltb_ge. apply tag_compare_le. Qed.
Lemma cmp_ge0f a b : (0 <=? tag_compare a b) = false <-> tag_lt a b.
Proof. rewrite <- tag_not_le, <- cmp_ge0. destruct (0 <=? tag_compare a b); split; congruence. Qed.

Lemma clip_spec e t : tag_le (clip e t) t /\ tag_le (clip e t) (stop e) /\ (clip e t = t \/ clip e t = stop e).
Proof.
  unfold clip. destruct (0 <? tag_compare t (stop e)) eqn:C.
  - apply cmp_gt0 in C. split; [now apply tag_lt_le|]. split; [apply tag_le_refl|now right].
  - apply cmp_gt0f in C. split; [apply tag_le_refl|]. split; [exact C|now left].
Qed.
Lemma clip_id e t : tag_le t (stop e) -> clip e t = t.
Proof. intros H. unfold clip. apply cmp_gt0f in H. now rewrite H. Qed.

Lemma head_spec l : match head l with Some h => In h l /\ forall t, In t l -> tag_le h t | None => l = [] end.
Proof.
  induction l as [|a l IH]; cbn [head fold_right]; [reflexivity|]. fold (head l). destruct (head l) as [h|] eqn:Hd.
  - destruct IH as (I1 & I2). destruct (tag_compare a h <=? 0) eqn:C.
    + apply cmp_le0 in C. split; [now left|]. intros t [<-|H]; [apply tag_le_refl|]. eapply tag_le_trans; [exact C|auto].
    + assert (tag_lt h a) by (rewrite <- tag_not_le, <- cmp_le0; congruence). split; [now right|]. intros t [<-|K]; [now apply tag_lt_le|auto].
  - subst l. split; [now left|]. intros t [<-|[]]. apply tag_le_refl.
Qed.

Definition bound (h : hold) : tag := let (f, c) := snd h in if tag_compare c f <? 0 then f else mkTag (ttime c) (tmicro c + 1).

Record inv (e : env) (l : list hold) : Prop := {
  i_cur : tag_ok (cur e);
  i_stop : tag_ok (stop e);
  i_q : forall t, In t (q e) -> tag_ok t /\ tag_lt (cur e) t;
  i_count : requestors e = Z.of_nat (length l);
  i_none : l = [] -> horizon e = FOREVER_TAG;
  i_bound : ttime (cur e) <> FOREVER -> forall h, In h l -> tag_le (horizon e) (bound h) /\ tag_lt (cur e) (bound h) /\ tag_le (snd (snd h)) (cur e);
  i_wait : forall p b, thr e = Waiting p b -> tag_ok p /\ (b = false -> l <> []) /\ (tag_le (stop e) p \/ exists t, In t (q e) /\ tag_le t p) }.

Lemma next_spec e l : inv e l -> exists t, next_event e = Some t /\ tag_le t (stop e) /\ tag_ok t /\ (tag_lt (cur e) t \/ t = stop e) /\
  (forall u, In u (q e) -> tag_le t u) /\ (forall u, (tag_le (stop e) u \/ exists v, In v (q e) /\ tag_le v u) -> tag_le t u) /\
  (tag_le (stop e) t \/ exists v, In v (q e) /\ tag_le v t).
Proof.
  intros I. unfold next_event. pose proof (head_spec (q e)) as H. destruct (head (q e)) as [h|].
  - destruct H as (H1 & H2). destruct (i_q _ _ I h H1) as (O & L). replace (tag_compare h (cur e) <? 0) with false by (symmetry; apply cmp_lt0f; now apply tag_lt_le).
    destruct (clip_spec e h) as (C1 & C2 & C3). exists (clip e h). split; [reflexivity|]. split; [exact C2|]. split; [destruct C3 as [-> | ->]; [exact O|apply (i_stop _ _ I)]|].
    split; [destruct C3 as [-> | ->]; auto|]. split; [intros u Hu; eapply tag_le_trans; [exact C1|auto]|].
    split; [intros u [K|(v & K1 & K2)]; [eapply tag_le_trans; eassumption|]; eapply tag_le_trans; [exact C1|]; eapply tag_le_trans; [apply H2, K1|exact K2]|].
    destruct C3 as [-> | ->]; [right; exists h; split; [exact H1|apply tag_le_refl]|left; apply tag_le_refl].
  - rewrite H. assert (clip e FOREVER_TAG = stop e) as E.
    { unfold clip. destruct (0 <? tag_compare FOREVER_TAG (stop e)) eqn:C; [reflexivity|]. apply cmp_gt0f in C. apply tag_le_antisym; [exact C|]. apply tag_forever_greatest, (i_stop _ _ I). }
    exists (stop e). split; [now rewrite E|]. split; [apply tag_le_refl|]. split; [apply (i_stop _ _ I)|]. split; [now right|]. split; [intros u []|]. split; [intros u [K|(v & [] & _)]; exact K|left; apply tag_le_refl].
Qed.

(** The end of the step: the new tag is below the horizon, or nothing is held, or it
    is FOREVER. *)
Lemma finish_ok e l next : inv e l -> thr e = Idle -> tag_le next (stop e) -> tag_ok next -> (tag_lt (cur e) next \/ next = stop e) -> (forall u, In u (q e) -> tag_le next u) ->
  (l = [] \/ ttime next = FOREVER \/ tag_lt next (horizon e)) ->
  exists e' es, finish e next = Done e' es /\ inv e' l /\ thr e' = Idle /\ (es = [] \/ (es = [Advanced next] /\ (ttime next <> FOREVER -> forall h, In h l -> allows h next))).
Proof.
  intros I Th Ls Ok Lc Lq Bar. unfold finish. destruct ((0 <=? tag_compare next (stop e)) && (0 <=? tag_compare (cur e) (stop e))) eqn:B.
  { exists e, []. split; [reflexivity|]. auto. }
  assert (Lt : tag_lt (cur e) next).
  { destruct Lc as [L| ->]; [exact L|]. apply andb_false_iff in B. destruct B as [B|B]; apply cmp_ge0f in B; [elim (tag_lt_irrefl _ B)|exact B]. }
  assert (Al : ttime next <> FOREVER -> forall h, In h l -> tag_lt next (bound h) /\ allows h next).
  { intros Nf h Hh. assert (Nc : ttime (cur e) <> FOREVER). { destruct Ok as (O1 & _). unfold tag_lt in Lt. unfold in_int64, FOREVER in *. lia. }
    destruct (i_bound _ _ I Nc h Hh) as (B1 & B2 & B3). destruct Bar as [->|[F|L]]; [destruct Hh|contradiction|].
    assert (K : tag_lt next (bound h)) by (eapply tag_lt_le_trans; eassumption). split; [exact K|]. unfold bound, allows in *. destruct (snd h) as (f, c). cbn [snd] in B3.
    destruct (tag_compare c f <? 0) eqn:C; [split; [now apply cmp_lt0|exact K]|]. exfalso. unfold tag_lt, tag_le in *. cbn [ttime tmicro] in *. lia. }
  apply cmp_lt0 in Lt as Lb. rewrite Lb. eexists _, _. split; [reflexivity|]. split; [|split; [exact Th|right; split; [reflexivity|intros Nf h Hh; now apply Al]]].
  split; cbn [cur stop q horizon requestors thr].
  - exact Ok.
  - apply (i_stop _ _ I).
  - intros t Ht. apply filter_In in Ht. destruct Ht as (Ht & E). destruct (i_q _ _ I t Ht) as (O & _). split; [exact O|]. apply negb_true_iff, Z.eqb_neq in E. rewrite tag_compare_eq in E.
    pose proof (Lq t Ht) as L. apply tag_le_lt_or_eq in L. destruct L as [L|L]; [exact L|congruence].
  - apply (i_count _ _ I).
  - apply (i_none _ _ I).
  - intros Nf h Hh. assert (Nc : ttime (cur e) <> FOREVER). { destruct Ok as (O1 & _). unfold tag_lt in Lt. unfold in_int64, FOREVER in *. lia. }
    destruct (i_bound _ _ I Nc h Hh) as (B1 & B2 & B3). split; [exact B1|]. split; [now apply Al|]. eapply tag_le_trans; [exact B3|now apply tag_lt_le].
  - rewrite Th. discriminate.
Qed.

Lemma must_wait_false e l p : inv e l -> must_wait e p = false -> l = [] \/ tag_lt p (horizon e).
Proof.
  intros I. unfold must_wait. intros B. apply andb_false_iff in B. destruct B as [B|B]; [|right; now apply cmp_ge0f in B]. left. rewrite (i_count _ _ I) in B. destruct l; [reflexivity|cbn in B; lia].
Qed.

Lemma set_thr_inv e l t : inv e l -> (forall p b, t = Waiting p b -> tag_ok p /\ (b = false -> l <> []) /\ (tag_le (stop e) p \/ exists v, In v (q e) /\ tag_le v p)) -> inv (set_thr e t) l.
Proof. intros I H. destruct I. split; cbn; auto. Qed.

Definition good (l : list hold) (e' : env) (es : list event) : Prop :=
  inv e' (fold_left note es l) /\ (es = [] \/ (exists t, es = [Advanced t] /\ (ttime t <> FOREVER -> forall h, In h l -> allows h t)) \/ (exists k f c, es = [Raised k f c]) \/ exists k, es = [Released k]).

Lemma finish_good e l next : inv e l -> thr e = Idle -> tag_le next (stop e) -> tag_ok next -> (tag_lt (cur e) next \/ next = stop e) -> (forall u, In u (q e) -> tag_le next u) ->
  (l = [] \/ ttime next = FOREVER \/ tag_lt next (horizon e)) -> exists e' es, finish e next = Done e' es /\ good l e' es /\ thr e' = Idle.
Proof.
  intros. destruct (finish_ok e l next) as (e' & es & E & I' & Th & [->|(-> & K)]); auto; exists e'; eexists; (split; [exact E|]); (split; [|exact Th]); (split; [exact I'|]); [now left|right; left; eauto].
Qed.

Lemma resume_good e l p b : inv e l -> thr e = Waiting p b -> exists e' es, resume e p = Done e' es /\ good l e' es /\ (l = [] -> thr e' = Idle).
Proof.
  intros I Th. unfold resume. destruct (i_wait _ _ I p b Th) as (Op & Sg & Le). destruct (clip_spec e p) as (C1 & C2 & C3). destruct (must_wait e (clip e p)) eqn:W.
  - assert (Nl : l <> []). { intros ->. unfold must_wait in W. rewrite (i_count _ _ I) in W. discriminate. }
    eexists _, _. split; [reflexivity|]. split; [split; [|now left]|contradiction]. cbn [fold_left]. apply set_thr_inv; [exact I|]. intros p' b' [= <- <-].
    split; [destruct C3 as [-> | ->]; [exact Op|apply (i_stop _ _ I)]|]. split; [auto|]. destruct C3 as [-> | ->]; [exact Le|left; apply tag_le_refl].
  - destruct (next_spec e l I) as (t & -> & N1 & N2 & N3 & N4 & N5 & N6). pose proof (must_wait_false e l _ I W) as Bar.
    assert (I' : inv (set_thr e Idle) l) by (apply set_thr_inv; [exact I|discriminate]).
    destruct (finish_good (set_thr e Idle) l t I' eq_refl N1 N2 N3 N4) as (e' & es & E & G & T).
    { destruct Bar as [->|Bar]; [now left|]. right. right. cbn. eapply tag_le_lt_trans; [|exact Bar]. destruct C3 as [-> | ->]; [now apply N5|exact N1]. }
    exists e', es. auto.
Qed.

Lemma bump_le c : tag_ok c -> tag_le (mkTag (ttime c) ((tmicro c + 1) mod two32)) (mkTag (ttime c) (tmicro c + 1)).
Proof. intros (_ & O). unfold tag_le. right. cbn. split; [reflexivity|]. apply Z.mod_le; unfold in_uint32, two32 in *; lia. Qed.

Lemma drop_length k (l : list hold) : In k (map fst l) -> length l = S (length (drop k l)).
Proof. induction l as [|h l IH]; cbn; [intros []|]. destruct (Nat.eqb_spec (fst h) k); [reflexivity|]. intros [E|H]; [contradiction|]. cbn. now rewrite <- IH. Qed.
Lemma drop_incl k (l : list hold) h : In h (drop k l) -> In h l.
Proof. induction l as [|a l IH]; cbn; [auto|]. destruct (Nat.eqb (fst a) k); cbn; intuition. Qed.

Lemma step_good e l o : inv e l -> match o with Release k => In k (map fst l) | Insert t => tag_ok t /\ tag_lt (cur e) t | SetStop t => tag_ok t | Raise _ f => tag_ok f | _ => True end ->
  match step true e o with Done e' es => good l e' es | Exits => False | Blocked => True end.
Proof.
  intros I A. destruct o as [| | |k f|k|t|t]; cbn [step].
  - destruct (thr e) as [|p b] eqn:Th; [|exact Logic.I]. destruct (next_spec e l I) as (t & -> & N1 & N2 & N3 & N4 & N5 & N6).
    replace (0 <? tag_compare t (stop e)) with false by (symmetry; now apply cmp_gt0f). cbn [negb orb]. rewrite (clip_id e t N1).
    assert (F : l = [] \/ ttime t = FOREVER \/ tag_lt t (horizon e) -> match finish e t with Done e' es => good l e' es | Exits => False | Blocked => True end).
    { intros Bar. destruct (finish_good e l t I Th N1 N2 N3 N4 Bar) as (e' & es & -> & G & _). exact G. }
    destruct (Z.eqb_spec (requestors e) 0) as [Z|Z]; [apply F; left; rewrite (i_count _ _ I) in Z; destruct l; [reflexivity|cbn in Z; lia]|].
    destruct (Z.eqb_spec (ttime t) FOREVER) as [T|T]; [apply F; auto|]. destruct (must_wait e t) eqn:W.
    + split; [|now left]. cbn [fold_left]. apply set_thr_inv; [exact I|]. intros p' b' [= <- <-]. split; [exact N2|]. split.
      * intros _ ->. rewrite (i_count _ _ I) in Z. contradiction.
      * exact N6.
    + apply F. destruct (must_wait_false e l t I W); auto.
  - destruct (thr e) as [|p []] eqn:Th; try exact Logic.I. destruct (resume_good e l p _ I Th) as (e' & es & -> & G & _). exact G.
  - destruct (thr e) as [|p b] eqn:Th; [exact Logic.I|]. destruct (resume_good e l p _ I Th) as (e' & es & -> & G & _). exact G.
  - split; [|right; right; left; eauto]. cbn [fold_left note]. destruct (clip_spec e f) as (C1 & C2 & C3). unfold raise. set (f' := clip e f) in *. pose proof (bump_le _ (i_cur _ _ I)) as Bp.
    split; cbn [cur stop q horizon requestors thr].
    + apply (i_cur _ _ I).
    + apply (i_stop _ _ I).
    + apply (i_q _ _ I).
    + rewrite (i_count _ _ I). cbn [length]. lia.
    + discriminate.
    + intros Nf h [<-|Hh].
      * unfold bound. cbn [snd]. destruct (tag_compare (cur e) f <? 0) eqn:C.
        -- apply cmp_lt0 in C. split; [|split; [exact C|apply tag_le_refl]]. destruct (0 <? tag_compare f' (cur e)) eqn:G.
           ++ destruct (tag_compare f' (horizon e) <? 0) eqn:L; [exact C1|]. apply cmp_lt0f in L. eapply tag_le_trans; [exact L|exact C1].
           ++ eapply tag_le_trans; [exact Bp|]. unfold tag_lt, tag_le in *. cbn [ttime tmicro]. lia.
        -- apply cmp_lt0f in C. split; [|split; [unfold tag_lt; cbn; lia|apply tag_le_refl]].
           replace (0 <? tag_compare f' (cur e)) with false by (symmetry; apply cmp_gt0f; eapply tag_le_trans; [exact C1|exact C]). exact Bp.
      * destruct (i_bound _ _ I Nf h Hh) as (B1 & B2 & B3). split; [|auto]. destruct (0 <? tag_compare f' (cur e)) eqn:G.
        -- destruct (tag_compare f' (horizon e) <? 0) eqn:L; [|exact B1]. apply cmp_lt0 in L. eapply tag_le_trans; [apply tag_lt_le; exact L|exact B1].
        -- eapply tag_le_trans; [exact Bp|]. clear - B2. unfold tag_lt, tag_le in *. cbn [ttime tmicro]. lia.
    + intros p b Th. destruct (i_wait _ _ I p b Th) as (W1 & W2 & W3). split; [exact W1|]. split; [discriminate|exact W3].
  - unfold release. pose proof (drop_length k l A) as Dl. assert (Rq : requestors e - 1 = Z.of_nat (length (drop k l))) . { pose proof (i_count _ _ I) as Ci. lia. } cbv zeta. rewrite Rq.
    replace (Z.of_nat (length (drop k l)) <? 0) with false by lia. assert (Bd : ttime (cur e) <> FOREVER -> forall h, In h (drop k l) -> tag_le (horizon e) (bound h) /\ tag_lt (cur e) (bound h) /\ tag_le (snd (snd h)) (cur e)).
    { intros Nf h Hh. apply (i_bound _ _ I Nf). eapply drop_incl, Hh. }
    destruct (Z.eqb_spec (Z.of_nat (length (drop k l))) 0) as [Z|Z]; (split; [|right; right; right; eauto]); cbn [fold_left note]; split; cbn [cur stop q horizon requestors thr]; try apply I.
    + reflexivity.
    + reflexivity.
    + intros _ h Hh. destruct (drop k l); [destruct Hh|cbn in Z; lia].
    + intros p b Th. destruct (thr e) as [|p' b'] eqn:Te; [discriminate|]. injection Th as <- <-. destruct (i_wait _ _ I p' b' Te) as (W1 & W2 & W3). split; [exact W1|]. split; [discriminate|exact W3].
    + reflexivity.
    + intros E. rewrite E in Z. contradiction.
    + exact Bd.
    + intros p b Th. destruct (i_wait _ _ I p b Th) as (W1 & W2 & W3). split; [exact W1|]. split; [|exact W3]. intros _ E. rewrite E in Z. contradiction.
  - destruct A as (A1 & A2). split; [|now left]. cbn [fold_left]. split; cbn [cur stop q horizon requestors thr].
    + apply (i_cur _ _ I).
    + apply (i_stop _ _ I).
    + intros u [<-|Hu]; [auto|now apply (i_q _ _ I)].
    + apply (i_count _ _ I).
    + apply (i_none _ _ I).
    + apply (i_bound _ _ I).
    + intros p b Th. destruct (i_wait _ _ I p b Th) as (W1 & W2 & W3). split; [exact W1|]. split; [exact W2|]. destruct W3 as [W3|(v & V1 & V2)]; [now left|right; exists v; split; [now right|exact V2]].
  - split; [|now left]. cbn [fold_left]. split; cbn [cur stop q horizon requestors thr].
    + apply (i_cur _ _ I).
    + destruct (tag_compare t (stop e) <? 0); [exact A|apply (i_stop _ _ I)].
    + apply (i_q _ _ I).
    + apply (i_count _ _ I).
    + apply (i_none _ _ I).
    + apply (i_bound _ _ I).
    + intros p b Th. destruct (i_wait _ _ I p b Th) as (W1 & W2 & W3). split; [exact W1|]. split; [exact W2|]. destruct W3 as [W3|W3]; [left|now right]. destruct (tag_compare t (stop e) <? 0) eqn:C; [|exact W3].
      apply cmp_lt0 in C. eapply tag_le_trans; [apply tag_lt_le; exact C|exact W3].
Qed.

Lemma init_inv start st : tag_ok start -> tag_ok st -> inv (init start st) [].
Proof. intros A B. split; cbn; auto; try discriminate; [intros t []|intros _ h []]. Qed.

Lemma held_app a b : held (a ++ b) = fold_left note b (held a).
Proof. unfold held. apply fold_left_app. Qed.

Lemma snoc_split (es : list event) x a t b : es ++ [x] = a ++ Advanced t :: b -> (es = a /\ x = Advanced t) \/ exists b', es = a ++ Advanced t :: b'.
Proof.
  destruct b as [|y b _] using rev_ind; intros E.
  - apply app_inj_tail in E. left. exact E.
  - right. exists b. change (a ++ Advanced t :: b ++ [y]) with (a ++ (Advanced t :: b) ++ [y]) in E. rewrite app_assoc in E. apply app_inj_tail in E. apply E.
Qed.

Lemma exec_inv start st e es : tag_ok start -> tag_ok st -> exec true (init start st) e es -> inv e (held es) /\ respected_but_forever es.
Proof.
  intros A B. induction 1 as [|e es o e' es' X IH Al E].
  - split; [now apply init_inv|]. intros a t b Ed. destruct a; discriminate.
  - destruct IH as (I & R). pose proof (step_good e (held es) o I) as G. rewrite E in G. assert (G' : good (held es) e' es') by (apply G; destruct o; auto).
    destruct G' as (I' & Ev). rewrite held_app. split; [exact I'|]. intros a t b Ed Nf h Hh. destruct Ev as [->|[(u & -> & K)|[(k & f & c & ->)|(k & ->)]]].
    + rewrite app_nil_r in Ed. eapply R; eassumption.
    + apply snoc_split in Ed. destruct Ed as [(-> & [= ->])|(b' & Ed)]; [auto|eapply R; eassumption].
    + apply snoc_split in Ed. destruct Ed as [(_ & D)|(b' & Ed)]; [discriminate|eapply R; eassumption].
    + apply snoc_split in Ed. destruct Ed as [(_ & D)|(b' & Ed)]; [discriminate|eapply R; eassumption].
Qed.
