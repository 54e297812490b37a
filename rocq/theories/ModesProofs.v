(** Proofs about modes: the current mode and the active modes. *)
From Verif Require Import Base Tag TagSpec TagProofs Modes ModesSpec.

Lemma upd_same {A} (f : nat -> A) i a : upd f i a i = a. Proof. unfold upd. now rewrite Nat.eqb_refl. Qed.
Lemma upd_other {A} (f : nat -> A) i j a : j <> i -> upd f i a j = f j. Proof. intros H. unfold upd. now rewrite (proj2 (Nat.eqb_neq j i) H). Qed.

Lemma each_pres {A} (P : state -> Prop) (f : state -> A -> state * list event) l :
  (forall s a, In a l -> P s -> P (fst (f s a))) -> forall s, P s -> P (fst (each f l s)).
Proof.
  induction l as [|a l IH]; intros H s Ps; cbn; [exact Ps|].
  pose proof (H s a (or_introl eq_refl) Ps) as P1. destruct (f s a) as [s1 e1]. cbn in P1.
  specialize (IH (fun s b Hb => H s b (or_intror Hb)) s1 P1). destruct (each f l s1) as [s2 e2]. exact IH.
Qed.

(** What scheduling leaves alone. *)
Definition same_modes (s s' : state) : Prop :=
  cur s' = cur s /\ next s' = next s /\ chg s' = chg s /\ flags s' = flags s /\ deact s' = deact s /\ susp s' = susp s /\ now s' = now s /\ stop s' = stop s /\ start s' = start s /\
  req_startup s' = req_startup s /\ req_reset s' = req_reset s.
Lemma same_refl s : same_modes s s. Proof. unfold same_modes; tauto. Qed.
Lemma same_trans a b c : same_modes a b -> same_modes b c -> same_modes a c.
Proof. unfold same_modes. intros H1 H2. destruct H1 as (A1&A2&A3&A4&A5&A6&A7&A8&A9&A10&A11), H2 as (B1&B2&B3&B4&B5&B6&B7&B8&B9&B10&B11). repeat split; congruence. Qed.
Lemma push_same s tr t : same_modes s (push s tr t). Proof. unfold same_modes; cbn; tauto. Qed.

Section P.
Variable p : program.

Lemma at_tag_same s tr t : same_modes s (fst (schedule_at_tag p s tr t)).
Proof.
  unfold schedule_at_tag. destruct (_ <=? 0); [apply same_refl|]. destruct (0 <? tag_compare t (stop s)); [apply same_refl|]. destruct (found (q s) tr t).
  - destruct (pol p tr); try apply same_refl. destruct (0 <? tag_compare (bump t) (stop s)); [apply same_refl|apply push_same].
  - apply push_same.
Qed.
Lemma timer_same s tr d : same_modes s (fst (schedule_timer p s tr d)).
Proof. unfold schedule_timer. cbv zeta. destruct (0 <? _); [apply same_refl|apply push_same]. Qed.
Lemma restart_same s tr : same_modes s (fst (restart p s tr)).
Proof. unfold restart. pose proof (timer_same s tr (offset p tr)) as T. destruct (schedule_timer p s tr (offset p tr)) as [s' r]. exact T. Qed.
Lemma wake_same m c b s e : same_modes s (fst (wake p m c b s e)).
Proof.
  unfold wake. destruct (etrig e) as [tr|]; [|apply same_refl].
  assert (same_modes s (fst (if b then (s, [Discards (eid e) tr (etag e) (now s)]) else
            let remaining := ttime (etag e) - (if deact s m =? 0 then start s else deact s m) in
            if in_int64b remaining && in_int64b (ttime (now s) + remaining) then
              let t := mkTag (ttime (now s) + remaining) (if remaining =? 0 then (tmicro (now s) + 1) mod two32 else 0) in
              let (s', r) := schedule_at_tag p s tr t in
              (s', [match r with
                    | Put u => Resumes (eid e) tr (etag e) u (now s)
                    | Past => Refused (eid e) tr (etag e) t (now s)
                    | AfterStop => TooLate (eid e) tr (etag e) t (now s)
                    | ByPolicy => Merged (eid e) tr (etag e) t (now s)
                    end])
            else (s, [Overflows (eid e) tr (etag e) (now s)])))) as G.
  { destruct b; [apply same_refl|]. cbv zeta. destruct (_ && _); [|apply same_refl].
    pose proof (at_tag_same s tr (mkTag (ttime (now s) + (ttime (etag e) - (if deact s m =? 0 then start s else deact s m))) (if ttime (etag e) - (if deact s m =? 0 then start s else deact s m) =? 0 then (tmicro (now s) + 1) mod two32 else 0))) as T.
    destruct (schedule_at_tag p s tr _) as [s' r]. exact T. }
  destruct c; [exact G| |exact G].
  destruct (is_timer p tr); [|apply same_refl]. pose proof (restart_same s tr) as R. destruct (restart p s tr). exact R.
Qed.
Lemma each_same {A} (f : state -> A -> state * list event) l : (forall s a, same_modes s (fst (f s a))) -> forall s, same_modes s (fst (each f l s)).
Proof.
  intros H s. apply (each_pres (same_modes s) f l); [|apply same_refl]. intros s1 a _ S1. eapply same_trans; [exact S1|apply H].
Qed.

Lemma cascade_spec s i : cascade p s i = s \/
  cascade p s i = mkState (cur s) (upd (next s) i (Some (initial p i))) (upd (chg s) i Reset) (flags s) (deact s) (q s) (susp s) (req_startup s) (req_reset s) (now s) (stop s) (start s) (fresh s) /\
  exists m, parent p i = Some m.
Proof.
  unfold cascade. destruct (parent p i) as [m|]; [|now left]. destruct (next s (owner p m)) as [m'|]; [|now left]. destruct (chg s (owner p m)); try now left. destruct (Nat.eqb m' m); [right; eauto|now left].
Qed.

(** One iteration of the first loop. *)
Lemma enter_keeps s i : let s' := fst (enter p s i) in
  cur s' = cur s /\ flags s' = flags s /\ deact s' = deact s /\ now s' = now s /\ stop s' = stop s /\ start s' = start s /\
  next s' = next (cascade p s i) /\ chg s' = chg (cascade p s i) /\
  susp s' = match next (cascade p s i) i with Some m => filter (fun e => negb (in_mode p m e)) (susp s) | None => susp s end.
Proof.
  cbv zeta. unfold enter. cbv zeta. set (c := cascade p s i).
  assert (cur c = cur s /\ flags c = flags s /\ deact c = deact s /\ now c = now s /\ stop c = stop s /\ start c = start s /\ susp c = susp s) as (C1 & C2 & C3 & C4 & C5 & C6 & C7).
  { unfold c. destruct (cascade_spec s i) as [-> |(-> & _)]; auto 8. }
  destruct (next c i) as [m|] eqn:N; [|cbn; repeat split; auto].
  set (r := match chg c i with Reset => _ | _ => _ end).
  assert (same_modes c (fst r)) as S1.
  { unfold r. destruct (chg c i); try apply same_refl. apply each_same. intros s0 tr. destruct (_ && _); [apply restart_same|apply same_refl]. }
  destruct r as [s0 e0]. cbn [fst] in S1. set (s1 := mkState _ _ _ _ _ _ (filter _ _) _ _ _ _ _ _).
  pose proof (each_same (wake p m (chg s0 i) (Nat.eqb m (cur s0 i))) (filter (in_mode p m) (susp s0)) (wake_same m _ _) s1) as S2.
  destruct (each _ _ s1) as [s2 e2]. cbn [fst] in S2 |- *. unfold same_modes in *. unfold s1 in S2. cbn in S2.
  destruct S1 as (A1&A2&A3&A4&A5&A6&A7&A8&A9&A10&A11), S2 as (B1&B2&B3&B4&B5&B6&B7&B8&B9&B10&B11). repeat split; congruence.
Qed.

(** ** The current mode and the cached flags *)
Hypothesis OK : program_ok p.

Record own (s : state) : Prop := {
  o_cur : forall i, (i < size p)%nat -> owner p (cur s i) = i;
  o_next : forall i m, (i < size p)%nat -> next s i = Some m -> owner p m = i }.
(** The flag of a mode agrees with the current mode and the flag of the enclosing mode. *)
Definition local (s : state) : Prop :=
  forall m, (owner p m < size p)%nat -> act (flags s m) = true <-> cur s (owner p m) = m /\ is_active s (parent p (owner p m)) = true.

Lemma local_active s : local s -> forall m, (owner p m < size p)%nat -> act (flags s m) = true <-> Active p (cur s) m.
Proof.
  intros L. assert (forall k m, (owner p m < k)%nat -> (owner p m < size p)%nat -> act (flags s m) = true <-> Active p (cur s) m) as G.
  { induction k as [|k IH]; intros m Hk Hs; [lia|]. rewrite (L m Hs). destruct (parent p (owner p m)) as [m'|] eqn:P; cbn [is_active].
    - pose proof (po_parent _ OK _ _ Hs P) as Q. rewrite (IH m') by lia. split.
      + intros (A & B). now apply (active_inner p (cur s) m m').
      + intros X. inversion X as [? A B|? m2 A B C]; subst; [congruence|]. split; [exact A|]. congruence.
    - split.
      + intros (A & _). now apply active_top.
      + intros X. inversion X as [? A B|? m2 A B C]; subst; [auto|congruence]. }
  intros m Hm. apply (G (S (owner p m)) m); [lia|exact Hm].
Qed.

Lemma enter_own s i : (i < size p)%nat -> own s -> own (fst (enter p s i)).
Proof.
  intros Hi [A B]. destruct (enter_keeps s i) as (E1 & _ & _ & _ & _ & _ & E7 & _). split.
  - intros j Hj. rewrite E1. auto.
  - intros j m Hj. rewrite E7. destruct (cascade_spec s i) as [-> |(-> & _)]; [apply B, Hj|]. cbn [next]. destruct (Nat.eq_dec j i) as [->|Ne]; [rewrite upd_same|rewrite upd_other by exact Ne; apply B, Hj].
    intros Q. injection Q as <-. now apply (po_initial _ OK).
Qed.
Lemma enter_flags s i : cur (fst (enter p s i)) = cur s /\ flags (fst (enter p s i)) = flags s.
Proof. destruct (enter_keeps s i) as (E1 & E2 & _). auto. Qed.

(** The second loop, after [k] iterations. *)
Record half (k : nat) (s : state) : Prop := {
  h_own : own s;
  h_done : forall m, (owner p m < k)%nat -> (owner p m < size p)%nat -> act (flags s m) = true <-> cur s (owner p m) = m /\ is_active s (parent p (owner p m)) = true;
  h_todo : forall m, (k <= owner p m < size p)%nat -> act (flags s m) = true -> cur s (owner p m) = m }.

Lemma set_act_flags s m b : flags (set_act s m b) = upd (flags s) m (mkFlags b (needs_startup (flags s m)) (had_startup (flags s m)) (needs_reset (flags s m))).
Proof. reflexivity. Qed.

(** What one iteration of the second loop does to the flags of activity and the current modes. *)
Definition target (s : state) (i : nat) : mode := match next s i with Some m => m | None => cur s i end.
Record switched (s : state) (i : nat) (s' : state) : Prop := {
  w_cur : forall j, cur s' j = if Nat.eqb j i then target s i else cur s j;
  w_next : forall j, next s' j = if Nat.eqb j i then None else next s j;
  w_chg : forall j, j <> i -> chg s' j = chg s j;
  w_q : q s' = q s;
  w_susp : susp s' = susp s;
  w_now : now s' = now s;
  w_stop : stop s' = stop s;
  w_start : start s' = start s;
  w_fresh : fresh s' = fresh s;
  w_deact : forall m, deact s' m = if match next s i with Some _ => Nat.eqb m (cur s i) | None => false end then ttime (now s) else deact s m;
  w_act : forall m, act (flags s' m) = if Nat.eqb m (target s i) && is_active (set_act s (cur s i) false) (parent p i) then true else if Nat.eqb m (cur s i) then false else act (flags s m) }.

Lemma switch_spec s i : switched s i (fst (switch p s i)).
Proof.
  unfold switch. cbv zeta. set (s0 := set_act s (cur s i) false). change (next s0 i) with (next s i).
  assert (forall m, act (flags s0 m) = if Nat.eqb m (cur s i) then false else act (flags s m)) as F0.
  { intros m. unfold s0. rewrite set_act_flags. unfold upd. now destruct (Nat.eqb m (cur s i)). }
  set (r := match next s i with Some m => _ | None => _ end).
  assert (exists s1 e1, r = (s1, e1) /\ (forall j, cur s1 j = if Nat.eqb j i then target s i else cur s j) /\ (forall j, next s1 j = if Nat.eqb j i then None else next s j) /\
    (forall j, j <> i -> chg s1 j = chg s j) /\ q s1 = q s /\ susp s1 = susp s /\ now s1 = now s /\ stop s1 = stop s /\ start s1 = start s /\ fresh s1 = fresh s /\
    (forall m, deact s1 m = if match next s i with Some _ => Nat.eqb m (cur s i) | None => false end then ttime (now s) else deact s m) /\
    forall m, act (flags s1 m) = act (flags s0 m)) as (s1 & e1 & R & Q1 & Q2 & Q3 & Q4 & Q5 & Q6 & Q7 & Q8 & Q9 & Q10 & Q11).
  { unfold r, target. destruct (next s i) as [m|] eqn:Ni; eexists; eexists; (split; [reflexivity|]); cbn [cur next q susp now stop start fresh chg deact flags].
    - split; [reflexivity|]. split; [reflexivity|]. split; [intros j Hj; now rewrite upd_other|]. do 6 (split; [reflexivity|]). split; [reflexivity|].
      intros m'. unfold upd at 1. destruct (Nat.eqb_spec m' m); [subst m'; reflexivity|reflexivity].
    - split; [intros j; destruct (Nat.eqb_spec j i); [now subst j|reflexivity]|]. split; [intros j; destruct (Nat.eqb_spec j i); [now subst j|reflexivity]|]. repeat split. }
  rewrite R. cbn [fst].
  assert (is_active s1 (parent p i) = is_active s0 (parent p i)) as Ia by (destruct (parent p i); cbn [is_active]; [apply Q11|reflexivity]).
  assert (cur s1 i = target s i) as Ci by (rewrite Q1, Nat.eqb_refl; reflexivity).
  rewrite Ia. destruct (is_active s0 (parent p i)) eqn:Pa.
  - split; cbn [cur next q susp now stop start fresh chg deact flags set_act set_flags]; auto; fold s0; rewrite ?Pa.
    intros m. rewrite Ci. unfold upd. rewrite andb_true_r. destruct (Nat.eqb m (target s i)); [reflexivity|]. now rewrite Q11.
  - split; auto; fold s0; rewrite ?Pa. intros m. rewrite andb_false_r. now rewrite Q11.
Qed.

Lemma switch_half k s : (k < size p)%nat -> half k s -> half (S k) (fst (switch p s k)).
Proof.
  intros Hk [[Oc On] Hd Ht]. pose proof (switch_spec s k) as W. set (s' := fst (switch p s k)) in *. clearbody s'.
  assert (owner p (target s k) = k) as Ot. { unfold target. destruct (next s k) eqn:N; [now apply On|now apply Oc]. }
  assert (owner p (cur s k) = k) as Oo by now apply Oc.
  assert (forall m, owner p m <> k -> act (flags s' m) = act (flags s m)) as Other.
  { intros m Hm. rewrite (w_act _ _ _ W). destruct (Nat.eqb_spec m (target s k)); [congruence|]. cbn [andb]. destruct (Nat.eqb_spec m (cur s k)); [congruence|reflexivity]. }
  assert (is_active (set_act s (cur s k) false) (parent p k) = is_active s (parent p k)) as Pa.
  { destruct (parent p k) as [m|] eqn:P; [|reflexivity]. pose proof (po_parent _ OK _ _ Hk P). cbn [is_active]. rewrite set_act_flags, upd_other; [reflexivity|congruence || (intros ->; lia)]. }
  assert (forall i, (i < size p)%nat -> (i <= k)%nat -> is_active s' (parent p i) = is_active s (parent p i)) as Ps.
  { intros i Hi Hk'. destruct (parent p i) as [m|] eqn:P; [|reflexivity]. pose proof (po_parent _ OK _ _ Hi P). cbn [is_active]. rewrite Other; [reflexivity|lia]. }
  split.
  - split.
    + intros i Hi. rewrite (w_cur _ _ _ W). destruct (Nat.eqb_spec i k); [subst i; exact Ot|auto].
    + intros i m Hi. rewrite (w_next _ _ _ W). destruct (Nat.eqb_spec i k); [discriminate|auto].
  - intros m Hm Hs. rewrite (w_cur _ _ _ W). rewrite Ps by lia. destruct (Nat.eqb_spec (owner p m) k) as [E|Ne].
    + rewrite (w_act _ _ _ W), Pa, E. destruct (Nat.eqb_spec m (target s k)) as [->|N1]; cbn [andb].
      * destruct (is_active s (parent p k)); [tauto|]. destruct (Nat.eqb_spec (target s k) (cur s k)) as [E2|N2]; [split; [discriminate|intros (_ & ?); discriminate]|].
        split; [intros A|intros (_ & ?); discriminate]. rewrite <- (Ht (target s k)) in N2 by (auto; lia). congruence.
      * destruct (Nat.eqb_spec m (cur s k)) as [->|N2]; [split; [discriminate|intros (A & _); congruence]|].
        split; [intros A|intros (A & _); congruence]. exfalso. apply N2. rewrite <- (Ht m); [now rewrite E|lia|exact A].
    + rewrite Other by exact Ne. apply Hd; lia.
  - intros m Hm A. rewrite (w_cur _ _ _ W). destruct (Nat.eqb_spec (owner p m) k); [lia|]. rewrite Other in A by exact n. apply Ht; [lia|exact A].
Qed.

Lemma switches_half n : (n <= size p)%nat -> forall k s, (k + n = size p)%nat -> half k s -> half (size p) (fst (each (switch p) (seq k n) s)).
Proof.
  induction n as [|n IH]; intros Hn k s Hk H; cbn [seq each].
  - cbn. now replace (size p) with k by lia.
  - pose proof (switch_half k s ltac:(lia) H) as H1. destruct (switch p s k) as [s1 e1]. cbn [fst] in H1. pose proof (IH ltac:(lia) (S k) s1 ltac:(lia) H1) as H2. destruct (each (switch p) (seq (S k) n) s1) as [s2 e2]. exact H2.
Qed.

Lemma reactors_in i : In i (reactors p) <-> (i < size p)%nat.
Proof. unfold reactors. rewrite in_seq. lia. Qed.

Definition good (s : state) : Prop := own s /\ local s.

Lemma good_ext s s' : (forall i, cur s' i = cur s i) -> (forall i, next s' i = next s i) -> (forall m, act (flags s' m) = act (flags s m)) -> good s -> good s'.
Proof.
  intros A B C ([D E] & L). split; [split|].
  - intros i Hi. rewrite A. auto.
  - intros i m Hi. rewrite B. auto.
  - intros m Hm. rewrite C, A. rewrite (L m Hm). destruct (parent p (owner p m)); cbn [is_active]; rewrite ?C; tauto.
Qed.

Lemma process_good s : good s -> good (fst (process p s)).
Proof.
  intros (O & L). unfold process.
  assert (own (fst (each (enter p) (reactors p) s)) /\ cur (fst (each (enter p) (reactors p) s)) = cur s /\ flags (fst (each (enter p) (reactors p) s)) = flags s) as (O1 & C1 & F1).
  { apply (each_pres (fun s1 => own s1 /\ cur s1 = cur s /\ flags s1 = flags s)); [|auto]. intros s1 i Hi (A & B & C). apply reactors_in in Hi. destruct (enter_flags s1 i) as (E1 & E2). split; [now apply enter_own|]. split; congruence. }
  destruct (each (enter p) (reactors p) s) as [s1 e1]. cbn [fst] in *.
  assert (local s1) as L1. { intros m Hm. rewrite C1, F1. rewrite (L m Hm). destruct (parent p (owner p m)); cbn [is_active]; rewrite ?F1; tauto. }
  destruct (existsb _ (reactors p)); [|split; auto].
  assert (half 0 s1) as H0. { split; [exact O1|lia|]. intros m Hm A. apply L1 in A; [tauto|lia]. }
  pose proof (switches_half (size p) ltac:(lia) 0 s1 ltac:(lia) H0) as H1. unfold reactors. destruct (each (switch p) (seq 0 (size p)) s1) as [s2 e2]. cbn [fst] in H1.
  cbn [retract fst]. destruct H1 as [O2 D2 _].
  assert (good s2) as G2. { split; [exact O2|]. intros m Hm. now apply D2. }
  unfold dummy. match goal with |- good (if ?b then _ else _) => destruct b end; (eapply good_ext; [| | |exact G2]; reflexivity).
Qed.

Lemma started_act s i : (forall j, cur (started s i) j = cur s j) /\ (forall j, next (started s i) j = next s j) /\ (forall m, act (flags (started s i) m) = act (flags s m)).
Proof.
  unfold started. destruct (act (flags s (cur s i))) eqn:A; [|auto]. cbn. repeat split. intros m. unfold upd. destruct (Nat.eqb_spec m (cur s i)); [subst; cbn; congruence|reflexivity].
Qed.
Lemma handled_act s : (forall j, cur (handled p s) j = cur s j) /\ (forall j, next (handled p s) j = next s j) /\ (forall m, act (flags (handled p s) m) = act (flags s m)).
Proof.
  unfold handled. cbn [cur next flags]. generalize (reactors p). intros l. revert s. induction l as [|i l IH]; intros s; cbn [fold_left]; [auto|].
  destruct (IH (started s i)) as (A & B & C). destruct (started_act s i) as (A1 & B1 & C1). repeat split; intros; [rewrite A, A1|rewrite B, B1|rewrite C, C1]; reflexivity.
Qed.

Lemma step_good s o s' es : good s -> allowed p s o -> step p s o = Some (s', es) -> good s'.
Proof.
  intros G A H. destruct o as [i m c|tr t|l|t]; cbn [step allowed] in *.
  - injection H as <- <-. destruct A as (A1 & A2 & _), G as ([O1 O2] & L). split; [split|].
    + exact O1.
    + intros j m' Hj. cbn [next]. destruct (Nat.eq_dec j i) as [->|Ne]; [rewrite upd_same; congruence|rewrite upd_other by exact Ne; auto].
    + exact L.
  - injection H as <- <-. eapply good_ext; [| | |exact G]; reflexivity.
  - injection H as <- <-. eapply good_ext; [| | |exact G]; reflexivity.
  - pose proof (process_good s G) as G1. destruct (process p s) as [s1 e1]. cbn [fst] in G1.
    destruct (_ && _) in H; [|discriminate]. injection H as <- <-. destruct (handled_act (mkState (cur s1) (next s1) (chg s1) (flags s1) (deact s1) (filter (fun e => negb (tag_compare (etag e) t =? 0)) (q s1)) (susp s1) (req_startup s1) (req_reset s1) t (stop s1) (start s1) (fresh s1))) as (A1 & B1 & C1).
    eapply good_ext; [exact A1|exact B1|exact C1|]. eapply good_ext; [| | |exact G1]; reflexivity.
Qed.

(** The start *)
Lemma enables n : forall k s, (k + n <= size p)%nat -> 
  (forall i, (i < size p)%nat -> owner p (cur s i) = i) -> (forall i, next s i = None) ->
  (forall m, (owner p m < k)%nat -> act (flags s m) = true <-> cur s (owner p m) = m /\ is_active s (parent p (owner p m)) = true) ->
  (forall m, (k <= owner p m < size p)%nat -> act (flags s m) = false) ->
  let s' := fold_left (enable p) (seq k n) s in
  (forall i, cur s' i = cur s i) /\ (forall i, next s' i = None) /\
  (forall m, (owner p m < k + n)%nat -> act (flags s' m) = true <-> cur s' (owner p m) = m /\ is_active s' (parent p (owner p m)) = true).
Proof.
  induction n as [|n IH]; intros k s Hk Oc On Hd Ht; cbn [seq fold_left].
  - replace (k + 0)%nat with k by lia. auto.
  - assert (cur (enable p s k) = cur s /\ next (enable p s k) = next s) as (E1 & E2) by (unfold enable; destruct (is_active s (parent p k)); auto).
    assert (forall m, act (flags (enable p s k) m) = if Nat.eqb m (cur s k) && is_active s (parent p k) then true else act (flags s m)) as E3.
    { intros m. unfold enable. destruct (is_active s (parent p k)); rewrite ?andb_true_r, ?andb_false_r; [|reflexivity]. cbn. unfold upd. now destruct (Nat.eqb m (cur s k)). }
    assert (forall i, (i < size p)%nat -> (i <= k)%nat -> is_active (enable p s k) (parent p i) = is_active s (parent p i)) as E4.
    { intros i Hi Hik. destruct (parent p i) as [m|] eqn:P; [|reflexivity]. pose proof (po_parent _ OK _ _ Hi P). cbn [is_active]. rewrite E3. destruct (Nat.eqb_spec m (cur s k)) as [->|]; [|reflexivity]. rewrite Oc in H by lia. lia. }
    destruct (IH (S k) (enable p s k)) as (I1 & I2 & I3); try lia.
    + intros i Hi. rewrite E1. auto.
    + intros i. rewrite E2. auto.
    + intros m Hm. rewrite E3, E1. rewrite E4 by lia. destruct (Nat.eq_dec (owner p m) k) as [E|Ne].
      * rewrite E. destruct (Nat.eqb_spec m (cur s k)) as [->|N1]; cbn [andb].
        -- destruct (is_active s (parent p k)); [tauto|]. rewrite Ht by lia. split; [discriminate|intros (_ & ?); discriminate].
        -- rewrite Ht by lia. split; [discriminate|intros (? & _); congruence].
      * destruct (Nat.eqb_spec m (cur s k)) as [->|N1]; [rewrite Oc in Ne by lia; lia|]. cbn [andb]. apply Hd. lia.
    + intros m Hm. rewrite E3. destruct (Nat.eqb_spec m (cur s k)) as [->|N1]; [rewrite Oc in Hm by lia; lia|]. apply Ht. lia.
    + cbv zeta. split; [intros i; rewrite I1, E1; reflexivity|]. split; [exact I2|]. intros m Hm. apply I3. lia.
Qed.

Lemma init_timer_same s tr : cur (fst (init_timer p s tr)) = cur s /\ next (fst (init_timer p s tr)) = next s /\ flags (fst (init_timer p s tr)) = flags s.
Proof. unfold init_timer. destruct (is_active s (tmode p tr)); auto. Qed.

Lemma init_good t0 st : good (fst (init p t0 st)).
Proof.
  unfold init. set (s0 := mkState _ _ _ _ _ [] [] _ _ _ _ _ _).
  assert (good (fold_left (enable p) (reactors p) s0)) as G.
  { unfold reactors. destruct (enables (size p) 0 s0) as (A & B & C); try lia; auto.
    - intros i Hi. now apply (po_initial _ OK).
    - split; [split|].
      + intros i Hi. rewrite A. now apply (po_initial _ OK).
      + intros i m _. rewrite B. discriminate.
      + intros m Hm. apply C. lia. }
  apply (each_pres good).
  - intros s tr _ Gs. destruct (init_timer_same s tr) as (A & B & C). eapply good_ext; [intros; now rewrite A|intros; now rewrite B|intros; now rewrite C|exact Gs].
  - destruct (handled_act (fold_left (enable p) (reactors p) s0)) as (A1 & B1 & C1). eapply good_ext; [exact A1|exact B1|exact C1|exact G].
Qed.

Lemma exec_good t0 st s es : exec p t0 st s es -> good s.
Proof. intros X. induction X; [apply init_good|]. eapply step_good; eassumption. Qed.
End P.
