(** Proofs about the suspension of events in modes that are not active. *)
From Coq Require Import Permutation.
From Verif Require Import Base Tag TagSpec TagProofs Modes ModesSpec ModesProofs.
From Verif Require TagBarrierProofs.
Import TagBarrierProofs. Import Modes ModesSpec ModesProofs.

Lemma each_inv {A} (P : state -> list event -> Prop) (f : state -> A -> state * list event) l :
  (forall s es a, In a l -> P s es -> P (fst (f s a)) (es ++ snd (f s a))) ->
  forall s es, P s es -> P (fst (each f l s)) (es ++ snd (each f l s)).
Proof.
  induction l as [|a l IH]; intros H s es Ps; cbn; [now rewrite app_nil_r|].
  pose proof (H s es a (or_introl eq_refl) Ps) as P1. destruct (f s a) as [s1 e1]. cbn in P1.
  specialize (IH (fun s es b Hb => H s es b (or_intror Hb)) s1 _ P1). destruct (each f l s1) as [s2 e2]. cbn in *. now rewrite app_assoc.
Qed.
Lemma each_seq (P : nat -> state -> list event -> Prop) (f : state -> nat -> state * list event) n :
  (forall k s es, (k < n)%nat -> P k s es -> P (S k) (fst (f s k)) (es ++ snd (f s k))) ->
  forall s es, P 0%nat s es -> P n (fst (each f (seq 0 n) s)) (es ++ snd (each f (seq 0 n) s)).
Proof.
  intros H. assert (forall m k s es, (k + m = n)%nat -> P k s es -> P n (fst (each f (seq k m) s)) (es ++ snd (each f (seq k m) s))) as G.
  { induction m as [|m IH]; intros k s es E Pk; cbn [seq each].
    - cbn. rewrite app_nil_r. now replace n with k by lia.
    - pose proof (H k s es ltac:(lia) Pk) as P1. destruct (f s k) as [s1 e1]. cbn in P1. specialize (IH (S k) s1 _ ltac:(lia) P1).
      destruct (each f (seq (S k) m) s1) as [s2 e2]. cbn in *. now rewrite app_assoc. }
  intros s es P0. apply (G n 0%nat); [lia|exact P0].
Qed.

Lemma bump_gt t : 0 <= tmicro t < UINT_MAX -> tag_lt t (bump t) /\ ttime (bump t) = ttime t.
Proof. intros H. unfold bump, tag_lt, two32, UINT_MAX in *. cbn. rewrite Z.mod_small by lia. split; [right; lia|reflexivity]. Qed.

Section P.
Variable p : program.
Hypothesis OK : program_ok p.

Definition left_at (s : state) (m : mode) : Z := if deact s m =? 0 then start s else deact s m.

Definition suspended (s : state) (es : list event) : Prop :=
  forall e tr m, In e (susp s) -> belongs p e tr m -> outermost p m ->
    cur s (owner p m) <> m /\ exists d, In (Suspends (eid e) tr (etag e) d) es /\ ttime d = left_at s m /\ ttime d <= ttime (etag e).
Definition trace_ok (es : list event) : Prop :=
  (forall id tr old new at_ m, In (Resumes id tr old new at_) es -> tmode p tr = Some m -> outermost p m ->
     exists d, In (Suspends id tr old d) es /\ ttime new = ttime at_ + (ttime old - ttime d) /\ tag_lt at_ new) /\
  (forall id tr old new at_ m, tmode p tr = Some m -> outermost p m -> ~ In (Refused id tr old new at_) es).
Definition clock (s : state) : Prop := 0 < start s <= ttime (now s) /\ tag_ok (now s) /\ ttime (now s) < FOREVER /\ tmicro (now s) < UINT_MAX - 1.
Definition future (s : state) : Prop := forall e, In e (q s) -> ttime (now s) <= ttime (etag e).

Lemma trace_app es es' : trace_ok es -> trace_ok es' -> trace_ok (es ++ es').
Proof.
  intros (A1 & A2) (B1 & B2). split.
  - intros id tr old new at_ m H T O. apply in_app_or in H. destruct H as [H|H]; [destruct (A1 _ _ _ _ _ _ H T O) as (d & D & D')|destruct (B1 _ _ _ _ _ _ H T O) as (d & D & D')]; exists d; (split; [apply in_or_app; auto|exact D']).
  - intros id tr old new at_ m T O H. apply in_app_or in H. destruct H as [H|H]; [eapply A2; eauto|eapply B2; eauto].
Qed.
Lemma trace_plain es es' : trace_ok es -> (forall x, In x es' -> match x with Resumes _ _ _ _ _ | Refused _ _ _ _ _ => False | _ => True end) -> trace_ok (es ++ es').
Proof.
  intros A N. apply trace_app; [exact A|]. split.
  - intros id tr old new at_ m H. destruct (N _ H).
  - intros id tr old new at_ m _ _ H. destruct (N _ H).
Qed.

Lemma in_mode_belongs m e : in_mode p m e = true <-> exists tr, belongs p e tr m.
Proof.
  unfold in_mode, belongs. split.
  - destruct (etrig e) as [tr|] eqn:E; [|discriminate]. destruct (tmode p tr) as [m'|] eqn:T; [|discriminate]. intros H. apply Nat.eqb_eq in H. subst m'. eauto.
  - intros (tr & -> & ->). apply Nat.eqb_refl.
Qed.

(** ** Scheduling *)
Lemma at_tag_spec s tr t s' r : clock s -> 0 <= tmicro t < UINT_MAX -> schedule_at_tag p s tr t = (s', r) ->
  match r with
  | Put u => s' = push s tr u /\ ttime u = ttime t /\ tag_lt (now s) u
  | Past => s' = s /\ tag_le t (now s)
  | AfterStop => s' = s /\ exists u, ttime u = ttime t /\ tag_lt (stop s) u
  | ByPolicy => s' = s /\ pol p tr <> Defer
  end.
Proof.
  intros _ M. unfold schedule_at_tag. destruct (tag_compare t (now s) <=? 0) eqn:C1.
  - intros H. injection H as <- <-. split; [reflexivity|now apply cmp_le0].
  - assert (tag_lt (now s) t) as L by (rewrite <- tag_not_le, <- cmp_le0; congruence).
    destruct (0 <? tag_compare t (stop s)) eqn:C2.
    + intros H. injection H as <- <-. split; [reflexivity|]. exists t. split; [reflexivity|now apply cmp_gt0].
    + destruct (found (q s) tr t).
      * destruct (pol p tr) eqn:Po; [|intros H; injection H as <- <-; split; [reflexivity|congruence]..].
        destruct (bump_gt t M) as (B1 & B2). destruct (0 <? tag_compare (bump t) (stop s)) eqn:C3; intros H; injection H as <- <-.
        -- split; [reflexivity|]. exists (bump t). split; [exact B2|now apply cmp_gt0].
        -- split; [reflexivity|]. split; [exact B2|]. now apply tag_lt_trans with t.
      * intros H. injection H as <- <-. auto.
Qed.

Lemma pile_up_time k l tr : forall t, ttime (pile_up k l tr t) = ttime t.
Proof. induction k as [|k IH]; intros t; cbn; [reflexivity|]. destruct (found l tr t); [rewrite IH; reflexivity|reflexivity]. Qed.

Lemma delay_gt s d : clock s -> 0 <= d <= LLONG_MAX -> tag_lt (now s) (delay_tag (now s) d).
Proof.
  intros (A & B & C & D) H. apply delay_tag_inc; [exact B|apply H| | |].
  - split; [|apply H]. apply Z.le_trans with 0; [now vm_compute|apply H].
  - split; [|exact C]. apply Z.lt_trans with 0; [now vm_compute|]. lia.
  - intros _. lia.
Qed.
Lemma lt_time a b : tag_lt a b -> ttime a <= ttime b.
Proof. unfold tag_lt. lia. Qed.

Lemma restart_spec s tr s' es : clock s -> restart p s tr = (s', es) ->
  (es = [] /\ s' = s \/ exists t, es = [Restarts tr t (now s)] /\ s' = push s tr t /\ ttime (now s) <= ttime t) /\
  (0 < period p tr -> let t := delay_tag (now s) (offset p tr) in In (Restarts tr t (now s)) es \/ tag_lt (stop s) t).
Proof.
  intros C. unfold restart, schedule_timer. pose proof (delay_gt s (offset p tr) C (po_offset _ OK tr)) as D. cbv zeta.
  set (t := delay_tag (now s) (offset p tr)) in *.
  set (t1 := if period p tr <=? 0 then pile_up (S (length (q s))) (q s) tr t else t).
  set (t2 := if tag_compare t1 (now s) =? 0 then bump t1 else t1).
  assert (ttime (now s) <= ttime t2) as L.
  { assert (ttime t1 = ttime t) as E by (unfold t1; destruct (_ <=? _); [apply pile_up_time|reflexivity]). apply lt_time in D. unfold t2. destruct (_ =? _); cbn; lia. }
  assert (0 < period p tr -> t2 = t) as Eq.
  { intros Hp. unfold t2, t1. replace (period p tr <=? 0) with false by (symmetry; apply Z.leb_gt; lia). destruct (tag_compare t (now s) =? 0) eqn:Z; [|reflexivity].
    apply Z.eqb_eq, tag_compare_eq in Z. rewrite <- Z in D. now apply tag_lt_irrefl in D. }
  destruct (0 <? tag_compare t2 (stop s)) eqn:S1; intros H; injection H as <- <-.
  - split; [now left|]. intros Hp. right. rewrite (Eq Hp) in S1. now apply cmp_gt0.
  - split; [right; exists t2; auto|]. intros Hp. left. rewrite (Eq Hp). now left.
Qed.

(** ** What happens to a suspended event *)
Definition answered (s0 : state) (e : ev) (tr : nat) (m : mode) (c : change) (es : list event) : Prop :=
  match c with
  | Reset => In (Discards (eid e) tr (etag e) (now s0)) es /\
             (is_timer p tr = true -> 0 < period p tr -> let t := delay_tag (now s0) (offset p tr) in In (Restarts tr t (now s0)) es \/ tag_lt (stop s0) t)
  | _ => outermost p m ->
         let r := ttime (etag e) - left_at s0 m in
         (exists u, In (Resumes (eid e) tr (etag e) u (now s0)) es /\ ttime u = ttime (now s0) + r) \/
         (exists u, In (TooLate (eid e) tr (etag e) u (now s0)) es /\ ttime u = ttime (now s0) + r /\ exists v, ttime v = ttime u /\ tag_lt (stop s0) v) \/
         (exists u, In (Merged (eid e) tr (etag e) u (now s0)) es /\ ttime u = ttime (now s0) + r /\ pol p tr <> Defer) \/
         In (Overflows (eid e) tr (etag e) (now s0)) es /\ ~ (in_int64 r /\ in_int64 (ttime (now s0) + r))
  end.
Lemma answered_app s0 e tr m c es es' : answered s0 e tr m c es -> answered s0 e tr m c (es ++ es').
Proof.
  destruct c; cbn; intros H.
  - intros O. destruct (H O) as [(u & A & B)|[(u & A & B)|[(u & A & B)|(A & B)]]]; [left|right; left|right; right; left|do 3 right]; eauto using in_or_app.
  - destruct H as (A & B). split; [apply in_or_app; auto|]. intros T P. destruct (B T P); [left; apply in_or_app; auto|now right].
  - intros O. destruct (H O) as [(u & A & B)|[(u & A & B)|[(u & A & B)|(A & B)]]]; [left|right; left|right; right; left|do 3 right]; eauto using in_or_app.
Qed.

Lemma answered_pre s0 e tr m c es es' : answered s0 e tr m c es' -> answered s0 e tr m c (es ++ es').
Proof.
  destruct c; cbn; intros H.
  - intros O. destruct (H O) as [(u & A & B)|[(u & A & B)|[(u & A & B)|(A & B)]]]; [left|right; left|right; right; left|do 3 right]; eauto using in_or_app.
  - destruct H as (A & B). split; [apply in_or_app; auto|]. intros T P. destruct (B T P); [left; apply in_or_app; auto|now right].
  - intros O. destruct (H O) as [(u & A & B)|[(u & A & B)|[(u & A & B)|(A & B)]]]; [left|right; left|right; right; left|do 3 right]; eauto using in_or_app.
Qed.

(** The queue grows by events of a mode [m] only. *)
Definition grows (m : mode) (s s' : state) : Prop :=
  forall e, In e (q s') -> In e (q s) \/ ttime (now s) <= ttime (etag e) /\ exists tr, belongs p e tr m.
Lemma grows_refl m s : grows m s s. Proof. intros e H. now left. Qed.
Lemma grows_push m s tr t : tmode p tr = Some m -> ttime (now s) <= ttime t -> grows m s (push s tr t).
Proof. intros T L e [<-|H]; [right; split; [exact L|exists tr; split; [reflexivity|exact T]]|now left]. Qed.
Lemma grows_trans m a b c : now b = now a -> grows m a b -> grows m b c -> grows m a c.
Proof. intros N A B e H. destruct (B e H) as [K|(K & K')]; [auto|]. right. split; [now rewrite <- N|exact K']. Qed.

Lemma wake_spec s es e tr m c same s' es' : clock s -> trace_ok es -> belongs p e tr m ->
  (outermost p m -> same = false /\ exists d, In (Suspends (eid e) tr (etag e) d) es /\ ttime d = left_at s m /\ ttime d <= ttime (etag e)) ->
  wake p m c same s e = (s', es') ->
  trace_ok (es ++ es') /\ answered s e tr m c es' /\ grows m s s' /\ (forall x, In x es' -> match x with Suspends _ _ _ _ | Entered _ _ _ => False | _ => True end).
Proof.
  intros C Tr (Be & Bm) Hs. unfold wake. rewrite Be.
  assert (forall c', c' <> Reset -> (if same then (s, [Discards (eid e) tr (etag e) (now s)]) else
            let remaining := ttime (etag e) - (if deact s m =? 0 then start s else deact s m) in
            if in_int64b remaining && in_int64b (ttime (now s) + remaining) then
              let t := mkTag (ttime (now s) + remaining) (if remaining =? 0 then (tmicro (now s) + 1) mod two32 else 0) in
              let (s', r) := schedule_at_tag p s tr t in
              (s', [match r with
                    | Put u => Resumes (eid e) tr (etag e) u (now s)
                    | Past => Refused (eid e) tr (etag e) t (now s)
                    | AfterStop => TooLate (eid e) tr (etag e) t (now s)
                    | ByPolicy => Merged (eid e) tr (etag e) t (now s)
                    end])
            else (s, [Overflows (eid e) tr (etag e) (now s)])) = (s', es') ->
    trace_ok (es ++ es') /\ answered s e tr m c' es' /\ grows m s s' /\ (forall x, In x es' -> match x with Suspends _ _ _ _ | Entered _ _ _ => False | _ => True end)) as G.
  { intros c' Hc'. destruct same.
    - intros H. injection H as <- <-. split; [apply trace_plain; [exact Tr|now intros x [<-|[]]]|]. split; [|split; [apply grows_refl|now intros x [<-|[]]]].
      destruct c'; try easy; cbn; intros O; destruct (Hs O); discriminate.
    - cbv zeta. change (if deact s m =? 0 then start s else deact s m) with (left_at s m). set (r := ttime (etag e) - left_at s m) in *.
      destruct (in_int64b r && in_int64b (ttime (now s) + r)) eqn:I.
      + set (t := mkTag (ttime (now s) + r) _). 
        assert (0 <= tmicro t < UINT_MAX) as Mt.
        { destruct C as (_ & (_ & C1) & _ & C2). unfold t; cbn. unfold two32, UINT_MAX, in_uint32 in *. destruct (r =? 0); [rewrite Z.mod_small by lia|]; lia. }
        destruct (schedule_at_tag p s tr t) as [s1 res] eqn:Sch. pose proof (at_tag_spec _ _ _ _ _ C Mt Sch) as Sp.
        intros H. injection H as <- <-.
        assert (outermost p m -> tag_lt (now s) t) as Fut.
        { intros O. destruct (Hs O) as (_ & d & _ & D2 & D3). assert (0 <= r) by (unfold r; lia). unfold t, tag_lt; cbn. destruct (r =? 0) eqn:R0; [|apply Z.eqb_neq in R0; lia].
          apply Z.eqb_eq in R0. right. split; [lia|]. destruct C as (_ & (_ & C1) & _ & C2). unfold two32, UINT_MAX, in_uint32 in *. rewrite Z.mod_small by lia. lia. }
        split; [|split; [|split]].
        * destruct res as [u| | |]; try (apply trace_plain; [exact Tr|now intros x [<-|[]]]).
          -- destruct Sp as (_ & Sp2 & Sp3). split.
             ++ intros id tr' old new at_ m' H T O. apply in_app_or in H. destruct H as [H|[H|[]]].
                ** destruct (proj1 Tr _ _ _ _ _ _ H T O) as (d & D & D'). exists d. split; [apply in_or_app; auto|exact D'].
                ** injection H as <- <- <- <- <-. assert (m' = m) as -> by congruence. destruct (Hs O) as (_ & d & D1 & D2 & D3). exists d. split; [apply in_or_app; auto|]. split; [rewrite Sp2, D2; reflexivity|exact Sp3].
             ++ intros id tr' old new at_ m' T O H. apply in_app_or in H. destruct H as [H|[H|[]]]; [eapply (proj2 Tr); eauto|discriminate].
          -- destruct Sp as (_ & Sp). split.
             ++ intros id tr' old new at_ m' H T O. apply in_app_or in H. destruct H as [H|[H|[]]]; [|discriminate]. destruct (proj1 Tr _ _ _ _ _ _ H T O) as (d & D & D'). exists d. split; [apply in_or_app; auto|exact D'].
             ++ intros id tr' old new at_ m' T O H. apply in_app_or in H. destruct H as [H|[H|[]]]; [eapply (proj2 Tr); eauto|]. injection H as <- <- <- <- <-. assert (m' = m) as -> by congruence.
                apply (tag_lt_irrefl (now s)). eapply tag_lt_le_trans; [apply Fut, O|exact Sp].
        * destruct c'; try easy; cbn; intros O; fold r; (destruct res as [u| | |];
            [destruct Sp as (_ & Sp2 & Sp3); left; exists u; split; [now left|exact Sp2]
            |destruct Sp as (_ & Sp); exfalso; apply (tag_lt_irrefl (now s)); eapply tag_lt_le_trans; [apply Fut, O|exact Sp]
            |destruct Sp as (_ & v & Sp2 & Sp3); right; left; exists t; split; [now left|]; split; [reflexivity|]; exists v; auto
            |destruct Sp as (_ & Sp); right; right; left; exists t; split; [now left|]; split; [reflexivity|exact Sp]]).
        * destruct res as [u| | |]; destruct Sp as (-> & Sp); try apply grows_refl. destruct Sp as (_ & Sp). apply grows_push; [exact Bm|now apply lt_time].
        * intros x [<-|[]]. now destruct res.
      + intros H. injection H as <- <-. split; [apply trace_plain; [exact Tr|now intros x [<-|[]]]|]. split; [|split; [apply grows_refl|now intros x [<-|[]]]].
        assert (~ (in_int64 r /\ in_int64 (ttime (now s) + r))) as Nr. { intros (R1 & R2). apply in_int64b_spec in R1, R2. rewrite R1, R2 in I. discriminate. }
        destruct c'; try easy; cbn; intros O; do 3 right; (split; [now left|exact Nr]). }
  destruct c; [apply G; discriminate| |apply G; discriminate].
  destruct (is_timer p tr) eqn:Ti.
  - destruct (restart p s tr) as [s1 l] eqn:R. intros H. injection H as <- <-. destruct (restart_spec _ _ _ _ C R) as ([(-> & ->)|(t & -> & -> & Lt)] & R2).
    + split; [apply trace_plain; [exact Tr|now intros x [<-|[]]]|]. split; [|split; [apply grows_refl|now intros x [<-|[]]]]. cbn. split; [now left|]. intros _ P. destruct (R2 P) as [[]|K]; now right.
    + split; [apply trace_plain; [exact Tr|now intros x [<-|[<-|[]]]]|]. split; [|split; [now apply grows_push|now intros x [<-|[<-|[]]]]].
      cbn. split; [now left|]. intros _ P. destruct (R2 P) as [K|K]; [left; now right|now right].
  - intros H. injection H as <- <-. split; [apply trace_plain; [exact Tr|now intros x [<-|[]]]|]. split; [|split; [apply grows_refl|now intros x [<-|[]]]].
    cbn. split; [now left|]. intros K. congruence.
Qed.

(** ** The first loop *)
Definition plain (x : event) : Prop := match x with Suspends _ _ _ _ | Entered _ _ _ => False | _ => True end.

(** A timer that fires once is restarted, or would be after the stop tag. *)
Definition once_again (s0 : state) (tr : nat) (es : list event) : Prop :=
  exists t, ttime t = ttime (delay_tag (now s0) (offset p tr)) /\ (In (Restarts tr t (now s0)) es \/ tag_lt (stop s0) t).
Lemma once_again_app s0 tr es es' : once_again s0 tr es -> once_again s0 tr (es ++ es').
Proof. intros (t & A & [B|B]); exists t; (split; [exact A|]); [left; apply in_or_app; auto|now right]. Qed.

Record pass1 (s0 : state) (es0 : list event) (k : nat) (s : state) (es : list event) : Prop := {
  p_keep : cur s = cur s0 /\ flags s = flags s0 /\ deact s = deact s0 /\ now s = now s0 /\ stop s = stop s0 /\ start s = start s0;
  p_own : own p s;
  p_trace : trace_ok es;
  p_susp : forall e, In e (susp s) -> In e (susp s0);
  p_es : exists l, es = es0 ++ l /\ forall x, In x l -> plain x;
  p_ans : forall e tr m, In e (susp s0) -> belongs p e tr m -> In e (susp s) \/ next s (owner p m) = Some m /\ (owner p m < k)%nat /\ forall l, es = es0 ++ l -> answered s0 e tr m (chg s (owner p m)) l;
  p_gone : forall m, (owner p m < k)%nat -> next s (owner p m) = Some m -> forall e, In e (susp s) -> in_mode p m e = false;
  p_q : forall e, In e (q s) -> In e (q s0) \/ ttime (now s0) <= ttime (etag e) /\ exists tr m, belongs p e tr m /\ (owner p m < k)%nat /\ next s (owner p m) = Some m;
  p_once : forall m tr, (owner p m < k)%nat -> next s (owner p m) = Some m -> chg s (owner p m) = Reset -> In tr (timers p) -> tmode p tr = Some m -> period p tr = 0 -> forall l, es = es0 ++ l -> once_again s0 tr l }.

Lemma restart_once s tr s' es : clock s -> restart p s tr = (s', es) -> once_again s tr es.
Proof.
  intros C. unfold restart, schedule_timer, once_again. pose proof (delay_gt s (offset p tr) C (po_offset _ OK tr)) as D. cbv zeta.
  set (t := delay_tag (now s) (offset p tr)) in *.
  set (t1 := if period p tr <=? 0 then pile_up (S (length (q s))) (q s) tr t else t).
  set (t2 := if tag_compare t1 (now s) =? 0 then bump t1 else t1).
  assert (ttime t2 = ttime t) as L. { assert (ttime t1 = ttime t) as E by (unfold t1; destruct (_ <=? _); [apply pile_up_time|reflexivity]). unfold t2. destruct (_ =? _); cbn; exact E. }
  destruct (0 <? tag_compare t2 (stop s)) eqn:S1; intros H; injection H as <- <-; exists t2; (split; [exact L|]); [right; now apply cmp_gt0|left; now left].
Qed.
Lemma restarts_once m l : forall s, clock s ->
  forall tr, In tr l -> tmode p tr = Some m -> period p tr = 0 ->
  once_again s tr (snd (each (fun s tr => if (period p tr =? 0) && (match tmode p tr with Some m' => Nat.eqb m' m | None => false end) then restart p s tr else (s, [])) l s)).
Proof.
  induction l as [|a l IH]; intros s C tr Hl T Pe; [easy|]. cbn [each].
  set (r0 := if (period p a =? 0) && _ then restart p s a else (s, [])).
  assert (same_modes s (fst r0)) as Sm by (unfold r0; destruct (_ && _); [apply restart_same|apply same_refl]).
  assert (a = tr -> once_again s tr (snd r0)) as Ha. { intros ->. unfold r0. rewrite T, Pe, Nat.eqb_refl. cbn [andb Z.eqb]. destruct (restart p s tr) as [s1 e1] eqn:R. cbn. eapply restart_once; eassumption. }
  destruct r0 as [s1 e1]. cbn [fst snd] in *. destruct Sm as (_&_&_&_&_&_&Q7&Q8&Q9&_&_).
  assert (clock s1) as C1 by (unfold clock in *; now rewrite Q7, Q9). specialize (IH s1 C1 tr).
  match goal with |- context [each ?f l s1] => destruct (each f l s1) as [s2 e2] end. cbn [fst snd] in *.
  destruct Hl as [E|Hl]; [apply once_again_app; auto|]. destruct (IH Hl T Pe) as (t & A & B). rewrite Q7 in *. rewrite Q8 in B. exists t. split; [exact A|]. destruct B; [left; apply in_or_app; auto|auto].
Qed.

Lemma restarts_spec m l : forall s, clock s ->
  let r := each (fun s tr => if (period p tr =? 0) && (match tmode p tr with Some m' => Nat.eqb m' m | None => false end) then restart p s tr else (s, [])) l s in
  same_modes s (fst r) /\ grows m s (fst r) /\ forall x, In x (snd r) -> exists tr t, x = Restarts tr t (now s).
Proof.
  induction l as [|tr l IH]; intros s C; cbn [each]; [split; [apply same_refl|split; [apply grows_refl|intros x []]]|].
  set (r0 := if (period p tr =? 0) && _ then restart p s tr else (s, [])).
  assert (same_modes s (fst r0) /\ grows m s (fst r0) /\ forall x, In x (snd r0) -> exists tr t, x = Restarts tr t (now s)) as (A1 & A2 & A3).
  { unfold r0. destruct (_ && _) eqn:B; [|split; [apply same_refl|split; [apply grows_refl|intros x []]]]. apply andb_true_iff in B. destruct B as (_ & B).
    assert (tmode p tr = Some m) as T by (revert B; destruct (tmode p tr); [intros B; apply Nat.eqb_eq in B; now subst|discriminate]).
    pose proof (restart_same p s tr) as Sm. destruct (restart p s tr) as [s1 e1] eqn:R. split; [exact Sm|]. destruct (restart_spec _ _ _ _ C R) as ([(-> & ->)|(t & -> & -> & Lt)] & _); cbn [fst snd].
    - split; [apply grows_refl|intros x []].
    - split; [now apply grows_push|]. intros x [<-|[]]. eauto. }
  destruct r0 as [s1 e1]. cbn [fst snd] in *. pose proof A1 as Q. destruct Q as (_&_&_&_&_&_&Q7&_&Q9&_&_).
  assert (clock s1) as C1 by (unfold clock in *; now rewrite Q7, Q9).
  destruct (IH s1 C1) as (B1 & B2 & B3). match goal with |- context [each ?f l s1] => destruct (each f l s1) as [s2 e2] end. cbn [fst snd] in *.
  split; [eapply same_trans; eassumption|]. split; [eapply grows_trans; [exact Q7|exact A2|exact B2]|].
  intros x H. apply in_app_or in H. destruct H as [H|H]; [auto|]. rewrite <- Q7. auto.
Qed.

Lemma wakes_spec m c same s0 l : forall s es, clock s -> same_modes s0 s -> trace_ok es -> (forall e, In e l -> exists tr, belongs p e tr m) ->
  (outermost p m -> l <> [] -> same = false) ->
  (forall e tr, outermost p m -> In e l -> belongs p e tr m -> exists d, In (Suspends (eid e) tr (etag e) d) es /\ ttime d = left_at s0 m /\ ttime d <= ttime (etag e)) ->
  let r := each (wake p m c same) l s in
  trace_ok (es ++ snd r) /\ (forall e tr, In e l -> belongs p e tr m -> answered s0 e tr m c (snd r)) /\ grows m s (fst r) /\ (forall x, In x (snd r) -> plain x).
Proof.
  induction l as [|a l IH]; intros s es C Sm Tr Be Sf Su; cbn [each].
  - cbn [fst snd]. rewrite app_nil_r. split; [exact Tr|]. split; [intros e tr []|]. split; [apply grows_refl|intros x []].
  - destruct (Be a (or_introl eq_refl)) as (tr & Ba). destruct (wake p m c same s a) as [s1 e1] eqn:W.
    pose proof Sm as Q. destruct Q as (_&_&_&_&Q5&_&Q7&Q8&Q9&_&_).
    assert (forall m, left_at s m = left_at s0 m) as La by (intros; unfold left_at; now rewrite Q5, Q9).
    destruct (wake_spec s es a tr m c same s1 e1 C Tr Ba) as (W1 & W2 & W3 & W4); [|exact W|].
    { intros O. split; [apply Sf; [exact O|discriminate]|]. rewrite La. apply Su; [exact O|now left|exact Ba]. }
    assert (same_modes s s1) as Sm1. { pose proof (wake_same p m c same s a) as K. now rewrite W in K. }
    pose proof Sm1 as R. destruct R as (_&_&_&_&R5&_&R7&R8&R9&_&_).
    assert (clock s1) as C1 by (unfold clock in *; now rewrite R7, R9).
    destruct (IH s1 (es ++ e1)) as (I1 & I2 & I3 & I4); auto.
    + eapply same_trans; eassumption.
    + intros e He. apply Be. now right.
    + intros O Hl. apply Sf; [exact O|discriminate].
    + intros e tr' O He Hb. destruct (Su e tr' O (or_intror He) Hb) as (d & D1 & D2). exists d. split; [apply in_or_app; auto|exact D2].
    + destruct (each (wake p m c same) l s1) as [s2 e2]. cbn [fst snd] in *. rewrite app_assoc. split; [exact I1|]. split.
      * intros e tr' [<-|He] Hb; [|apply answered_pre; now apply I2]. assert (tr' = tr) as -> by (destruct Ba, Hb; congruence). apply answered_app.
        unfold answered in *. rewrite <- Q7, <- Q8. unfold left_at in *. rewrite <- Q5, <- Q9. exact W2.
      * split; [eapply grows_trans; [exact R7|exact W3|exact I3]|]. intros x H. apply in_app_or in H. destruct H; [now apply W4|auto].
Qed.

Lemma cascade_next s i : (forall j, j <> i -> next (cascade p s i) j = next s j /\ chg (cascade p s i) j = chg s j) /\ q (cascade p s i) = q s /\ susp (cascade p s i) = susp s.
Proof. destruct (cascade_spec p s i) as [-> |(-> & _)]; [auto|]. cbn. split; [|auto]. intros j Hj. now rewrite !upd_other. Qed.

Lemma enter_pass1 s0 es0 k s es : (k < size p)%nat -> clock s0 -> suspended s0 es0 -> pass1 s0 es0 k s es -> pass1 s0 es0 (S k) (fst (enter p s k)) (es ++ snd (enter p s k)).
Proof.
  intros Hk C0 Su [Ke Ow Tr Sp Es An Go Qq On1].
  pose proof (enter_own p OK s k Hk Ow) as Ow'. pose proof (enter_keeps p s k) as EK. cbv zeta in EK.
  unfold enter in *. cbv zeta in *. destruct (cascade_next s k) as (Cn & Cq & Cs). set (c := cascade p s k) in *.
  assert (cur c = cur s /\ flags c = flags s /\ deact c = deact s /\ now c = now s /\ stop c = stop s /\ start c = start s) as (C1 & C2 & C3 & C4 & C5 & C6).
  { unfold c. destruct (cascade_spec p s k) as [-> |(-> & _)]; auto 8. }
  destruct Ke as (K1 & K2 & K3 & K4 & K5 & K6).
  assert (clock c) as Cc by (unfold clock in *; now rewrite C4, C6, K4, K6).
  destruct (next c k) as [m|] eqn:N.
  2:{ cbn [fst snd] in *. rewrite app_nil_r. split; auto.
      - repeat split; congruence.
      - intros e He. apply Sp. now rewrite <- Cs.
      - intros e tr m He Hb. destruct (An e tr m He Hb) as [A|(A1 & A2 & A3)]; [left; now rewrite Cs|right]. destruct (Cn (owner p m) ltac:(lia)) as (D1 & D2). rewrite D1, D2. split; [exact A1|]. split; [lia|exact A3].
      - intros m Hm Hn e He. rewrite Cs in He. destruct (Nat.eq_dec (owner p m) k) as [E|E]; [rewrite E in Hn; congruence|]. apply (Go m); [lia| |exact He]. rewrite <- Hn. symmetry. now apply Cn.
      - intros e He. rewrite Cq in He. destruct (Qq e He) as [A|(A & tr & m & A1 & A2 & A3)]; [now left|right]. split; [exact A|]. exists tr, m. split; [exact A1|]. split; [lia|]. rewrite <- A3. apply Cn. lia.
      - intros m tr Hm Hn Hc. destruct (Nat.eq_dec (owner p m) k) as [E|E]; [rewrite E in Hn; congruence|]. destruct (Cn (owner p m) E) as (D1 & D2). rewrite D1 in Hn. rewrite D2 in Hc. apply On1; [lia|exact Hn|exact Hc]. }
  assert (owner p m = k) as Om.
  { destruct Ow' as [_ On]. apply (On k m Hk). destruct EK as (_&_&_&_&_&_&E7&_). rewrite E7. exact N. }
  set (r0 := match chg c k with Reset => _ | _ => _ end) in *.
  assert (same_modes c (fst r0) /\ grows m c (fst r0) /\ forall x, In x (snd r0) -> exists tr t, x = Restarts tr t (now c)) as (R1 & R2 & R3).
  { unfold r0. destruct (chg c k); try (split; [apply same_refl|split; [apply grows_refl|intros x []]]). now apply restarts_spec. }
  assert (chg c k = Reset -> forall tr, In tr (timers p) -> tmode p tr = Some m -> period p tr = 0 -> once_again c tr (snd r0)) as R4.
  { unfold r0. intros -> tr T1 T2 T3. now apply restarts_once. }
  destruct r0 as [s1 e1]. cbn [fst snd] in R1, R2, R3, R4. pose proof R1 as Q. destruct Q as (Q1&Q2&Q3&Q4&Q5&Q6&Q7&Q8&Q9&_&_).
  set (s2 := mkState (cur s1) (next s1) (chg s1) (flags s1) (deact s1) (q s1) (filter (fun e => negb (in_mode p m e)) (susp s1)) (req_startup s1) (req_reset s1) (now s1) (stop s1) (start s1) (fresh s1)) in *.
  assert (clock s2) as Cl2 by (unfold clock in *; cbn; now rewrite Q7, Q9).
  assert (forall e, In e (filter (in_mode p m) (susp s1)) <-> In e (susp s) /\ in_mode p m e = true) as Fl. { intros e. rewrite filter_In, Q6, Cs. tauto. }
  assert (trace_ok (es ++ e1)) as Tr1. { apply trace_plain; [exact Tr|]. intros x Hx. destruct (R3 x Hx) as (? & ? & ->). exact I. }
  destruct (wakes_spec m (chg s1 k) (Nat.eqb m (cur s1 k)) s2 (filter (in_mode p m) (susp s1)) s2 (es ++ e1)) as (W1 & W2 & W3 & W4); auto.
  { apply same_refl. }
  { intros e He. apply in_mode_belongs. now apply Fl. }
  { intros O Hl. destruct (filter (in_mode p m) (susp s1)) as [|e l]; [easy|]. destruct (proj1 (Fl e) (or_introl eq_refl)) as (F1 & F2). apply in_mode_belongs in F2. destruct F2 as (tr & F2).
    destruct (Su e tr m (Sp e F1) F2 O) as (D1 & _). rewrite Om in D1. apply Nat.eqb_neq. rewrite Q1, C1, K1. congruence. }
  { intros e tr O He Hb. apply Fl in He. destruct (Su e tr m (Sp e (proj1 He)) Hb O) as (_ & d & D1 & D2 & D3). exists d. destruct Es as (l & -> & _). split; [apply in_or_app; left; apply in_or_app; now left|].
    split; [|exact D3]. unfold left_at in *. cbn. rewrite Q5, Q9, C3, C6, K3, K6. exact D2. }
  destruct (each (wake p m (chg s1 k) (Nat.eqb m (cur s1 k))) (filter (in_mode p m) (susp s1)) s2) as [s3 e3] eqn:E3. cbn [fst snd] in *.
  destruct EK as (E1&E2&E3'&E4&E5&E6&E7&E8&E9). rewrite ?N in E9.
  rewrite <- app_assoc in W1. split; auto.
  - repeat split; congruence.
  - intros e He. rewrite E9 in He. apply filter_In in He. apply Sp, He.
  - destruct Es as (l & -> & El). exists (l ++ e1 ++ e3). split; [now rewrite <- app_assoc|]. intros x Hx. apply in_app_or in Hx. destruct Hx as [Hx|Hx]; [auto|]. apply in_app_or in Hx. destruct Hx as [Hx|Hx]; [destruct (R3 x Hx) as (? & ? & ->); exact I|auto].
  - intros e tr m' He Hb. destruct (An e tr m' He Hb) as [A|(A1 & A2 & A3)].
    + destruct (in_mode p m e) eqn:Im; [|left; rewrite E9; apply filter_In; split; [exact A|now rewrite Im]]. right.
      assert (m' = m) as ->. { apply in_mode_belongs in Im. destruct Im as (tr' & B1 & B2), Hb as (B3 & B4). congruence. }
      rewrite Om, E7, E8. split; [exact N|]. split; [lia|].
      assert (answered s2 e tr m (chg s1 k) e3) as W by (apply W2; [apply Fl; auto|exact Hb]).
      rewrite Q3 in W. intros l El. destruct Es as (l0 & -> & _). rewrite <- app_assoc in El. apply app_inv_head in El. subst l. apply answered_pre, answered_pre. unfold answered, left_at in *. cbn in W. rewrite Q5, Q7, Q8, Q9, C3, C4, C5, C6, K3, K4, K5, K6 in W. exact W.
    + right. rewrite E7, E8. destruct (Cn (owner p m') ltac:(lia)) as (D1 & D2). rewrite D1, D2. split; [exact A1|]. split; [lia|]. intros l El. destruct Es as (l0 & -> & _). rewrite <- app_assoc in El. apply app_inv_head in El. subst l. apply answered_app. now apply A3.
  - intros m' Hm Hn e He. rewrite E9 in He. apply filter_In in He. destruct He as (He & Hf). rewrite E7 in Hn. destruct (Nat.eq_dec (owner p m') k) as [E|E].
    + rewrite E, N in Hn. injection Hn as <-. now apply negb_true_iff in Hf.
    + apply (Go m'); [lia| |exact He]. rewrite <- Hn. symmetry. now apply Cn.
  - intros e He. destruct (W3 e He) as [A|(A & tr & B)].
    + change (q s2) with (q s1) in A. destruct (R2 e A) as [B|(B & tr & B')].
      * rewrite Cq in B. destruct (Qq e B) as [D|(D & tr & m' & D1 & D2 & D3)]; [now left|right]. split; [exact D|]. exists tr, m'. split; [exact D1|]. split; [lia|]. rewrite E7, <- D3. apply Cn. lia.
      * right. split; [now rewrite <- K4, <- C4|]. exists tr, m. split; [exact B'|]. rewrite Om. split; [lia|]. now rewrite E7.
    + right. split; [rewrite <- K4, <- C4, <- Q7; exact A|]. exists tr, m. split; [exact B|]. rewrite Om. split; [lia|]. now rewrite E7.
  - intros m' tr Hm Hn Hc T1 T2 T3. rewrite E7 in Hn. rewrite E8 in Hc. destruct (Nat.eq_dec (owner p m') k) as [E|E].
    + rewrite E, N in Hn. injection Hn as <-. rewrite E in Hc. destruct (R4 Hc tr T1 T2 T3) as (t & A & B). rewrite C4, K4 in A, B. rewrite C5, K5 in B. intros l El. destruct Es as (l0 & -> & _). rewrite <- app_assoc in El. apply app_inv_head in El. subst l. exists t. split; [exact A|]. destruct B; [left; apply in_or_app; right; apply in_or_app; auto|now right].
    + destruct (Cn (owner p m') E) as (D1 & D2). rewrite D1 in Hn. rewrite D2 in Hc. intros l El. destruct Es as (l0 & -> & _). rewrite <- app_assoc in El. apply app_inv_head in El. subst l. apply once_again_app, (On1 m'); auto. lia.
Qed.

(** ** The second loop *)
Record pass2 (s1 : state) (k : nat) (s : state) (es : list event) : Prop := {
  t_half : half p k s;
  t_cur : forall i, (i < size p)%nat -> cur s i = if (i <? k)%nat then target s1 i else cur s1 i;
  t_next : forall i, (i < size p)%nat -> next s i = if (i <? k)%nat then None else next s1 i;
  t_chg : forall i, (k <= i)%nat -> chg s i = chg s1 i;
  t_same : q s = q s1 /\ susp s = susp s1 /\ now s = now s1 /\ stop s = stop s1 /\ start s = start s1;
  t_deact : forall m, (owner p m < size p)%nat -> deact s m = if match next s1 (owner p m) with Some _ => (owner p m <? k)%nat && Nat.eqb m (cur s1 (owner p m)) | None => false end then ttime (now s1) else deact s1 m;
  t_es : forall x, In x es <-> exists i m, (i < k)%nat /\ next s1 i = Some m /\ x = Entered m (chg s1 i) (now s1) }.

Lemma switch_events s i : snd (switch p s i) = match next s i with Some m => [Entered m (chg s i) (now s)] | None => [] end.
Proof. unfold switch. cbv zeta. cbn [next set_act set_flags]. destruct (next s i); reflexivity. Qed.

Lemma switch_pass2 s1 k s es : own p s1 -> (k < size p)%nat -> pass2 s1 k s es -> pass2 s1 (S k) (fst (switch p s k)) (es ++ snd (switch p s k)).
Proof.
  intros Ow Hk [H1 H2 H3 H4 H5 H6 H7]. pose proof (switch_half p OK k s Hk H1) as Hh. pose proof (switch_spec p s k) as W. rewrite switch_events. set (s' := fst (switch p s k)) in *. clearbody s'.
  destruct H5 as (Q1 & Q2 & Q3 & Q4 & Q5).
  assert (next s k = next s1 k) as Nk by (rewrite H3 by exact Hk; now rewrite Nat.ltb_irrefl).
  assert (cur s k = cur s1 k) as Ck by (rewrite H2 by exact Hk; now rewrite Nat.ltb_irrefl).
  split.
  - exact Hh.
  - intros i Hi. rewrite (w_cur _ _ _ _ W). destruct (Nat.eqb_spec i k) as [->|Ne].
    + replace (k <? S k)%nat with true by (symmetry; apply Nat.ltb_lt; lia). unfold target. now rewrite Nk, Ck.
    + rewrite H2 by exact Hi. replace (i <? S k)%nat with (i <? k)%nat; [reflexivity|]. destruct (Nat.ltb_spec i k); destruct (Nat.ltb_spec i (S k)); try reflexivity; lia.
  - intros i Hi. rewrite (w_next _ _ _ _ W). destruct (Nat.eqb_spec i k) as [->|Ne].
    + now replace (k <? S k)%nat with true by (symmetry; apply Nat.ltb_lt; lia).
    + rewrite H3 by exact Hi. replace (i <? S k)%nat with (i <? k)%nat; [reflexivity|]. destruct (Nat.ltb_spec i k); destruct (Nat.ltb_spec i (S k)); try reflexivity; lia.
  - intros i Hi. rewrite (w_chg _ _ _ _ W) by lia. apply H4. lia.
  - rewrite (w_q _ _ _ _ W), (w_susp _ _ _ _ W), (w_now _ _ _ _ W), (w_stop _ _ _ _ W), (w_start _ _ _ _ W). auto.
  - intros m Hm. rewrite (w_deact _ _ _ _ W), Nk, Ck, Q3, H6 by exact Hm. destruct (Nat.eq_dec (owner p m) k) as [E|E].
    + rewrite E, Nat.ltb_irrefl. replace (k <? S k)%nat with true by (symmetry; apply Nat.ltb_lt; lia). cbn [andb]. destruct (next s1 k); [|reflexivity]. destruct (Nat.eqb m (cur s1 k)); reflexivity.
    + replace (owner p m <? S k)%nat with (owner p m <? k)%nat. 2:{ destruct (Nat.ltb_spec (owner p m) k); destruct (Nat.ltb_spec (owner p m) (S k)); try reflexivity; lia. }
      assert (Nat.eqb m (cur s1 k) = false) as ->. { apply Nat.eqb_neq. intros ->. rewrite (o_cur _ _ Ow k Hk) in E. now destruct E. }
      now destruct (next s1 k).
  - intros x. rewrite in_app_iff, H7, Nk, (H4 k) by lia. rewrite Q3. split.
    + intros [(i & m & A & B & D)|Hx]; [exists i, m; split; [lia|auto]|]. destruct (next s1 k) as [m|] eqn:N; [|easy]. destruct Hx as [<-|[]]. exists k, m. auto.
    + intros (i & m & A & B & D). destruct (Nat.eq_dec i k) as [->|Ne]; [right; rewrite B; now left|left; exists i, m; split; [lia|auto]].
Qed.

(** ** The invariant *)
Record events_ok (s : state) (es : list event) : Prop := {
  v_good : good p s;
  v_clock : clock s;
  v_susp : suspended s es;
  v_trace : trace_ok es;
  v_future : future s;
  v_act : forall e tr m, In e (q s) -> belongs p e tr m -> act (flags s m) = true }.

Lemma process_events s es : events_ok s es ->
  let s' := fst (process p s) in let l := snd (process p s) in
  events_ok s' (es ++ l) /\ now s' = now s /\ stop s' = stop s /\
  (forall m c at_, In (Entered m c at_) l -> at_ = now s /\ (owner p m < size p)%nat /\ cur s' (owner p m) = m /\
     (forall e tr, In e (susp s) -> belongs p e tr m -> answered s e tr m c l) /\
     (c = Reset -> forall tr, In tr (timers p) -> tmode p tr = Some m -> period p tr = 0 -> once_again s tr l) /\
     (outermost p m -> forall e tr, In e (susp s') -> ~ belongs p e tr m)).
Proof.
  intros [G C Su Tr Fu Ac]. cbv zeta. pose proof (process_good p OK s G) as G'.
  assert (pass1 s es 0 s es) as P0.
  { split; auto; try tauto; try lia; try (intros; lia); [apply G|exists []; split; [now rewrite app_nil_r|intros x []]]. }
  pose proof (each_seq (pass1 s es) (enter p) (size p) (fun k s1 es1 Hk => enter_pass1 s es k s1 es1 Hk C Su) s es P0) as P1.
  unfold process in *. change (reactors p) with (seq 0 (size p)) in *. destruct (each (enter p) (seq 0 (size p)) s) as [s1 e1]. cbn [fst snd] in P1.
  destruct P1 as [(K1 & K2 & K3 & K4 & K5 & K6) Ow1 Tr1 Sp1 Es1 An1 Go1 Q1 On1].
  assert (forall e, In e (q s1) -> ttime (now s) <= ttime (etag e)) as Fu1. { intros e He. destruct (Q1 e He) as [A|(A & _)]; [now apply Fu|exact A]. }
  assert (clock s1) as Cl1 by (unfold clock in *; now rewrite K4, K6).
  destruct (existsb (fun i => match next s1 i with Some _ => true | None => false end) (seq 0 (size p))) eqn:X.
  - assert (half p 0 s1) as Ha0. { split; [exact Ow1|lia|]. intros m Hm A. rewrite K2 in A. rewrite K1. apply (proj2 G) in A; [tauto|lia]. }
    assert (pass2 s1 0 s1 []) as T0.
    { split; auto.
      - intros m Hm. cbn. now destruct (next s1 (owner p m)).
      - intros x. split; [intros []|]. intros (i & _ & Hi & _). lia. }
    pose proof (each_seq (pass2 s1) (switch p) (size p) (fun k s2 es2 Hk => switch_pass2 s1 k s2 es2 Ow1 Hk) s1 [] T0) as T1.
    destruct (each (switch p) (seq 0 (size p)) s1) as [s2 e2]. cbn [fst snd app] in T1. destruct T1 as [T1 T2 T3 T4 (T5 & T6 & T7 & T8 & T9) T10 T11].
    cbn [retract fst snd] in *. set (out := filter (inactive p s2) (q s2)).
    set (e3 := flat_map (fun e => match etrig e with Some tr => [Suspends (eid e) tr (etag e) (now s2)] | None => [] end) out).
    set (s3 := mkState (cur s2) (next s2) (chg s2) (flags s2) (deact s2) (filter (fun e => negb (inactive p s2 e)) (q s2)) (rev out ++ susp s2) (req_startup s2) (req_reset s2) (now s2) (stop s2) (start s2) (fresh s2)) in *.
    assert (good p s2) as G2. { destruct T1 as [O D _]. split; [exact O|]. intros m Hm. now apply D. }
    assert (forall e tr m, In e out -> belongs p e tr m -> outermost p m -> cur s (owner p m) = m /\ cur s2 (owner p m) <> m /\ ttime (now s) = left_at s2 m) as Out.
    { intros e tr m He (B1 & B2) (O1 & O2). apply filter_In in He. destruct He as (He & Hi). unfold inactive in Hi. rewrite B1, B2 in Hi. cbn [is_active] in Hi. apply negb_true_iff in Hi.
      assert (cur s2 (owner p m) <> m) as Nc. { intros E. assert (act (flags s2 m) = true) as A; [|congruence]. apply (proj2 G2 m O1). split; [exact E|]. now rewrite O2. }
      rewrite T2 in Nc by exact O1. replace (owner p m <? size p)%nat with true in Nc by (symmetry; now apply Nat.ltb_lt).
      rewrite T5 in He. destruct (Q1 e He) as [A|(_ & tr' & m' & (B3 & B4) & _ & A3)].
      - assert (act (flags s m) = true) as A' by (eapply Ac; [exact A|split; eassumption]). apply (proj2 G m O1) in A'. destruct A' as (A' & _). split; [exact A'|].
        split; [rewrite T2 by exact O1; replace (owner p m <? size p)%nat with true by (symmetry; now apply Nat.ltb_lt); exact Nc|].
        unfold left_at. rewrite T10 by exact O1. unfold target in Nc. rewrite K1, A' in *. destruct (next s1 (owner p m)); [|now destruct Nc].
        replace (owner p m <? size p)%nat with true by (symmetry; now apply Nat.ltb_lt). rewrite Nat.eqb_refl. cbn [andb]. rewrite K4. destruct C as (C & _). replace (ttime (now s) =? 0) with false by (symmetry; apply Z.eqb_neq; lia). reflexivity.
      - assert (m' = m) as -> by congruence. unfold target in Nc. rewrite A3 in Nc. now destruct Nc. }
    assert (forall e tr m, In e (susp s1) -> belongs p e tr m -> outermost p m -> cur s2 (owner p m) <> m /\ left_at s2 m = left_at s m) as In1.
    { intros e tr m He Hb (O1 & O2). destruct (Su e tr m (Sp1 e He) Hb (conj O1 O2)) as (D1 & _). split.
      - rewrite T2 by exact O1. replace (owner p m <? size p)%nat with true by (symmetry; now apply Nat.ltb_lt). unfold target. destruct (next s1 (owner p m)) as [m'|] eqn:N; [|now rewrite K1].
        intros ->. assert (in_mode p m e = true) as I1 by (apply in_mode_belongs; eauto). rewrite (Go1 m O1 N e He) in I1. discriminate.
      - unfold left_at. rewrite T10 by exact O1. rewrite T9, K6, K3. destruct (next s1 (owner p m)); [|reflexivity]. rewrite K1. replace (Nat.eqb m (cur s (owner p m))) with false by (symmetry; apply Nat.eqb_neq; congruence). now rewrite andb_false_r. }
    assert (forall e tr, In e out -> etrig e = Some tr -> In (Suspends (eid e) tr (etag e) (now s)) e3) as In3.
    { intros e tr He Et. unfold e3. apply in_flat_map. exists e. split; [exact He|]. rewrite Et, T7, K4. now left. }
    assert (events_ok s3 (es ++ e1 ++ e2 ++ e3)) as Ev.
    { split.
      - eapply good_ext; [| | |exact G2]; reflexivity.
      - unfold clock in *. cbn. rewrite T7, T9, K4, K6 in *. exact C.
      - intros e tr m He Hb O. cbn [susp] in He. apply in_app_or in He. destruct He as [He|He].
        + apply in_rev in He. destruct (Out e tr m He Hb O) as (O1 & O2 & O3). split; [exact O2|]. exists (now s). split; [|split; [exact O3|]].
          * do 3 (apply in_or_app; right). apply In3; [exact He|apply Hb].
          * apply filter_In in He. rewrite T5 in He. now apply Fu1.
        + rewrite T6 in He. destruct (In1 e tr m He Hb O) as (I1 & I2). destruct (Su e tr m (Sp1 e He) Hb O) as (_ & d & D1 & D2 & D3). split; [exact I1|]. exists d. split; [apply in_or_app; now left|]. split; [|exact D3]. change (left_at s3 m) with (left_at s2 m). congruence.
      - rewrite app_assoc. apply trace_plain; [exact Tr1|]. intros x Hx. apply in_app_or in Hx. destruct Hx as [Hx|Hx].
        + apply T11 in Hx. destruct Hx as (i & m & _ & _ & ->). exact I.
        + unfold e3 in Hx. apply in_flat_map in Hx. destruct Hx as (e & _ & Hx). destruct (etrig e); [|easy]. destruct Hx as [<-|[]]. exact I.
      - intros e He. apply (proj1 (filter_In _ _ _)) in He. change (now s3) with (now s2). rewrite T7, K4. apply Fu1. rewrite <- T5. apply He.
      - intros e tr m He (B1 & B2). apply (proj1 (filter_In _ _ _)) in He. destruct He as (_ & He). unfold inactive in He. rewrite B1, B2, negb_involutive in He. exact He. }
    assert (events_ok (dummy s3) (es ++ e1 ++ e2 ++ e3) /\ now (dummy s3) = now s /\ stop (dummy s3) = stop s /\ cur (dummy s3) = cur s2 /\ susp (dummy s3) = rev out ++ susp s2) as (Ev' & Dn & Ds & Dc & Du).
    { assert (now s2 = now s /\ stop s2 = stop s) as (N2 & S2) by (split; congruence).
      unfold dummy. destruct (req_startup s3 || req_reset s3); [|split; [exact Ev|split; [exact N2|split; [exact S2|split; reflexivity]]]]. split; [|split; [exact N2|split; [exact S2|split; reflexivity]]]. destruct Ev as [A1 A2 A3 A4 A5 A6]. split.
      - eapply good_ext; [| | |exact A1]; reflexivity.
      - exact A2.
      - exact A3.
      - exact A4.
      - intros e [<-|He]; [cbn; lia|exact (A5 e He)].
      - intros e tr m [<-|He] (B1 & B2); [discriminate|]. apply (A6 e tr m He (conj B1 B2)). }
    split; [exact Ev'|]. split; [exact Dn|]. split; [exact Ds|].
    intros m c at_ H. assert (In (Entered m c at_) e2) as H2.
    { apply in_app_or in H. destruct H as [H|H]; [|apply in_app_or in H; destruct H as [H|H]; [exact H|]].
      - destruct Es1 as (l & El & Pl). apply app_inv_head in El. subst e1. destruct (Pl _ H).
      - unfold e3 in H. apply in_flat_map in H. destruct H as (e & _ & H). destruct (etrig e); [|easy]. destruct H as [H|[]]. discriminate. }
    apply T11 in H2. destruct H2 as (i & m' & Hi & Hn & E). injection E as <- -> ->. assert (owner p m = i) as Om by (apply (o_next _ _ Ow1); assumption).
    split; [exact K4|]. split; [now rewrite Om|]. rewrite Dc. assert (cur s2 (owner p m) = m) as Cm. { rewrite T2 by now rewrite Om. rewrite Om. replace (i <? size p)%nat with true by (symmetry; now apply Nat.ltb_lt). unfold target. now rewrite Hn. }
    split; [exact Cm|]. split.
    + intros e tr He Hb. destruct (An1 e tr m He Hb) as [A|(A1 & A2 & A3)].
      * exfalso. assert (in_mode p m e = true) as I1 by (apply in_mode_belongs; eauto). rewrite (Go1 m) in I1; [discriminate|now rewrite Om|now rewrite Om|exact A].
      * rewrite Om in A3. apply answered_app. now apply A3.
    + split; [intros Hc tr Ht Hm Hp; apply once_again_app, (On1 m tr); try assumption; try reflexivity; rewrite Om; assumption|].
      revert Out In1. clear - T6 Du Cm. intros Out In1 O e tr He Hb. rewrite Du in He. apply in_app_or in He. destruct He as [He|He].
      * apply in_rev in He. destruct (Out e tr m He Hb O) as (_ & N & _). contradiction.
      * rewrite T6 in He. destruct (In1 e tr m He Hb O) as (N & _). contradiction.
  - cbn [fst snd] in *. assert (forall i, (i < size p)%nat -> next s1 i = None) as Nn.
    { intros i Hi. destruct (next s1 i) as [m|] eqn:N; [|reflexivity]. assert (existsb (fun i => match next s1 i with Some _ => true | None => false end) (seq 0 (size p)) = true); [|congruence].
      apply existsb_exists. exists i. split; [apply in_seq; lia|now rewrite N]. }
    split; [|split; [exact K4|split; [exact K5|]]].
    + split.
      * exact G'.
      * exact Cl1.
      * intros e tr m He Hb O. destruct (Su e tr m (Sp1 e He) Hb O) as (D1 & d & D2 & D3). rewrite K1. split; [exact D1|]. exists d. split; [apply in_or_app; now left|]. unfold left_at in *. now rewrite K3, K6.
      * exact Tr1.
      * intros e He. rewrite K4. now apply Fu1.
      * intros e tr m He Hb. destruct (Q1 e He) as [A|(_ & tr' & m' & B & Hm & N)]; [rewrite K2; eapply Ac; eassumption|]. rewrite Nn in N by exact Hm. discriminate.
    + intros m c at_ H. destruct Es1 as (l & El & Pl). apply app_inv_head in El. subst e1. destruct (Pl _ H).
Qed.

(** ** Executions *)
Lemma clock_ext s s' : now s' = now s -> start s' = start s -> clock s -> clock s'.
Proof. unfold clock. now intros -> ->. Qed.
Lemma handled_same s : q (handled p s) = q s /\ susp (handled p s) = susp s /\ deact (handled p s) = deact s /\ now (handled p s) = now s /\ stop (handled p s) = stop s /\ start (handled p s) = start s /\ fresh (handled p s) = fresh s.
Proof.
  unfold handled. cbn [q susp deact now stop start fresh]. generalize (reactors p). intros l. revert s. induction l as [|i l IH]; intros s; cbn [fold_left]; [repeat split|].
  destruct (IH (started s i)) as (A1 & A2 & A3 & A4 & A5 & A6 & A7). rewrite A1, A2, A3, A4, A5, A6, A7. unfold started. destruct (act (flags s (cur s i))); repeat split.
Qed.
Lemma handled_cur s : cur (handled p s) = cur s /\ next (handled p s) = next s.
Proof.
  unfold handled. cbn [cur next]. generalize (reactors p). intros l. revert s. induction l as [|i l IH]; intros s; cbn [fold_left]; [repeat split|].
  destruct (IH (started s i)) as (A1 & A2). rewrite A1, A2. unfold started. destruct (act (flags s (cur s i))); repeat split.
Qed.

Lemma step_events s es o s' l : events_ok s es -> allowed p s o -> step p s o = Some (s', l) -> events_ok s' (es ++ l).
Proof.
  intros V A H. pose proof (step_good p OK s o s' l (v_good _ _ V) A H) as G'. destruct o as [i m c|tr t|l0|t]; cbn [step allowed] in *.
  - injection H as <- <-. rewrite app_nil_r. destruct V as [V1 V2 V3 V4 V5 V6]. split; auto.
  - injection H as <- <-. rewrite app_nil_r. destruct V as [V1 V2 V3 V4 V5 V6], A as (A1 & A2). split; auto.
    + intros e [<-|He]; [cbn; now apply lt_time|now apply V5].
    + intros e tr' m [<-|He] Hb; [|now apply (V6 e tr' m)]. destruct Hb as (B1 & B2). cbn in B1. injection B1 as <-. rewrite B2 in A2. cbn. apply (local_active p OK s (proj2 V1)); [now apply (po_modes _ OK tr)|exact A2].
  - injection H as <- <-. rewrite app_nil_r. destruct V as [V1 V2 V3 V4 V5 V6]. split; auto.
    + intros e He. apply V5. eapply Permutation_in; [apply Permutation_sym, A|exact He].
    + intros e tr m He. apply V6. eapply Permutation_in; [apply Permutation_sym, A|exact He].
  - destruct (process_events s es V) as (V' & N & St & _). destruct (process p s) as [s1 e1]. cbn [fst snd] in *.
    destruct ((tag_compare (now s1) t <? 0) && _) eqn:B in H; [|discriminate]. injection H as <- <-. apply andb_true_iff in B. destruct B as (B1 & B2). rewrite forallb_forall in B2. apply cmp_lt0 in B1.
    set (s2 := mkState _ _ _ _ _ (filter _ _) _ _ _ _ _ _ _) in *. destruct (handled_same s2) as (H1 & H2 & H3 & H4 & H5 & H6 & H7). destruct (handled_act p s2) as (_ & _ & H8). destruct (handled_cur s2) as (H9 & _).
    destruct V' as [V1 V2 V3 V4 V5 V6]. split.
    + exact G'.
    + destruct V2 as (C1 & C2 & C3 & C4). unfold clock. rewrite H4, H6. cbn. apply lt_time in B1. destruct A as (A1 & A2 & A3). split; [lia|auto].
    + intros e tr m He Hb O. rewrite H2 in He. rewrite H9. destruct (V3 e tr m He Hb O) as (D1 & d & D2 & D3 & D4). split; [exact D1|]. exists d. split; [exact D2|]. unfold left_at in *. rewrite H3, H6. auto.
    + exact V4.
    + intros e He. rewrite H1 in He. rewrite H4. apply (proj1 (filter_In _ _ _)) in He. destruct He as (He & _). apply B2, cmp_le0 in He. cbn. unfold tag_le in He. lia.
    + intros e tr m He Hb. rewrite H1 in He. rewrite H8. apply (proj1 (filter_In _ _ _)) in He. destruct He as (He & _). now apply (V6 e tr m).
Qed.

Lemma init_events t0 st : 0 < t0 < FOREVER -> events_ok (fst (init p t0 st)) (snd (init p t0 st)).
Proof.
  intros T. pose proof (init_good p OK t0 st) as G. unfold init in *. set (s0 := mkState _ _ _ _ _ [] [] _ _ _ _ _ _) in *. set (s1 := handled p (fold_left (enable p) (reactors p) s0)) in *.
  assert (q s1 = [] /\ susp s1 = [] /\ (forall m, deact s1 m = 0) /\ now s1 = mkTag t0 0 /\ start s1 = t0) as (Q1 & Q2 & Q3 & Q4 & Q5).
  { unfold s1. destruct (handled_same (fold_left (enable p) (reactors p) s0)) as (H1 & H2 & H3 & H4 & H5 & H6 & H7). rewrite H1, H2, H3, H4, H6.
    assert (forall l s, q (fold_left (enable p) l s) = q s /\ susp (fold_left (enable p) l s) = susp s /\ deact (fold_left (enable p) l s) = deact s /\ now (fold_left (enable p) l s) = now s /\ start (fold_left (enable p) l s) = start s) as K.
    { induction l as [|i l IH]; intros s; cbn [fold_left]; [auto|]. destruct (IH (enable p s i)) as (A1 & A2 & A3 & A4 & A5). rewrite A1, A2, A3, A4, A5. unfold enable. destruct (is_active s (parent p i)); cbn; auto. }
    destruct (K (reactors p) s0) as (A1 & A2 & A3 & A4 & A5). rewrite A1, A2, A3, A4, A5. cbn. auto. }
  set (P := fun s es => cur s = cur s1 /\ flags s = flags s1 /\ q s = [] /\ (forall m, deact s m = 0) /\ now s = mkTag t0 0 /\ start s = t0 /\
    (forall x, In x es -> match x with Suspends _ _ _ _ => True | _ => False end) /\
    forall e tr m, In e (susp s) -> belongs p e tr m -> is_active s1 (Some m) = false /\ In (Suspends (eid e) tr (etag e) (mkTag t0 0)) es /\ t0 <= ttime (etag e)).
  assert (P (fst (each (init_timer p) (timers p) s1)) ([] ++ snd (each (init_timer p) (timers p) s1))) as F.
  { apply (each_inv P).
    - intros s es tr Ht (P1 & P2 & P3 & P4 & P5 & P6 & P7 & P8). unfold init_timer. destruct (is_active s (tmode p tr)) eqn:Ia; cbn [fst snd]; [rewrite app_nil_r; unfold P; auto 12|].
      unfold P. cbn [cur flags q deact now start susp]. do 6 (split; [assumption|]). split.
      + intros x Hx. apply in_app_or in Hx. destruct Hx as [Hx|[<-|[]]]; [now apply P7|exact I].
      + intros e tr' m [<-|He] Hb.
        * destruct Hb as (B1 & B2). cbn in B1. injection B1 as <-. rewrite B2 in Ia. cbn [is_active] in *. rewrite <- P2. split; [exact Ia|]. cbn. rewrite P5. split; [apply in_or_app; right; now left|]. cbn. pose proof (po_offset _ OK tr). lia.
        * destruct (P8 e tr' m He Hb) as (D1 & D2 & D3). split; [exact D1|]. split; [apply in_or_app; now left|exact D3].
    - unfold P. rewrite Q2. do 2 (split; [reflexivity|]). do 4 (split; [assumption|]). split; [intros x []|intros e tr m []]. }
  cbn [app] in F. destruct (each (init_timer p) (timers p) s1) as [s es]. cbn [fst snd] in *. destruct F as (P1 & P2 & P3 & P4 & P5 & P6 & P7 & P8). split.
  - exact G.
  - unfold clock. rewrite P5, P6. cbn. unfold tag_ok, in_int64, in_uint32, two32, UINT_MAX, FOREVER, LLONG_MAX, LLONG_MIN in *. cbn. lia.
  - intros e tr m He Hb O. destruct (P8 e tr m He Hb) as (D1 & D2 & D3). split.
    + intros E. assert (act (flags s m) = true) as Am. { apply (proj2 G m (proj1 O)). split; [exact E|]. now rewrite (proj2 O). } cbn [is_active] in D1. rewrite P2 in Am. congruence.
    + exists (mkTag t0 0). split; [exact D2|]. unfold left_at. rewrite P4, P6. cbn. auto.
  - split.
    + intros id tr old new at_ m H. destruct (P7 _ H).
    + intros id tr old new at_ m _ _ H. destruct (P7 _ H).
  - intros e. rewrite P3. intros [].
  - intros e tr m. rewrite P3. intros [].
Qed.

Lemma exec_events t0 st s es : 0 < t0 < FOREVER -> exec p t0 st s es -> events_ok s es.
Proof. intros T X. induction X; [now apply init_events|]. eapply step_events; eassumption. Qed.

(** ** Resumed and restarted events are in the queue *)
Definition filed (s s' : state) (es : list event) : Prop :=
  (forall e, In e (q s) -> In e (q s')) /\
  (forall x, In x es -> match x with Resumes _ tr _ u _ | Restarts tr u _ => in_queue s' tr u | _ => True end).
Lemma filed_none s es : (forall x, In x es -> match x with Resumes _ _ _ _ _ | Restarts _ _ _ => False | _ => True end) -> filed s s es.
Proof. intros H. split; [auto|]. intros x Hx. specialize (H x Hx). now destruct x. Qed.
Lemma filed_nil s : filed s s []. Proof. apply filed_none. intros x []. Qed.
Lemma filed_trans a b c l l' : filed a b l -> filed b c l' -> filed a c (l ++ l').
Proof.
  intros (A1 & A2) (B1 & B2). split; [auto|]. intros x Hx. apply in_app_or in Hx. destruct Hx as [Hx|Hx]; [|now apply B2]. specialize (A2 x Hx). destruct x; auto; destruct A2 as (e & E1 & E2); exists e; auto.
Qed.
Lemma filed_push s tr t : in_queue (push s tr t) tr t.
Proof. eexists. split; [left; reflexivity|auto]. Qed.
Lemma restart_filed s tr : filed s (fst (restart p s tr)) (snd (restart p s tr)).
Proof.
  unfold restart, schedule_timer. cbv zeta. set (t := if tag_compare _ _ =? 0 then _ else _). destruct (0 <? tag_compare t (stop s)); cbn [fst snd]; [apply filed_nil|].
  split; [intros e He; now right|]. intros x [<-|[]]. apply filed_push.
Qed.
Lemma wake_filed m c b s e : filed s (fst (wake p m c b s e)) (snd (wake p m c b s e)).
Proof.
  unfold wake. destruct (etrig e) as [tr|]; [|apply filed_nil].
  assert (forall (r : state * list event), r = (if b then (s, [Discards (eid e) tr (etag e) (now s)]) else
            let remaining := ttime (etag e) - (if deact s m =? 0 then start s else deact s m) in
            if in_int64b remaining && in_int64b (ttime (now s) + remaining) then
              let t := mkTag (ttime (now s) + remaining) (if remaining =? 0 then (tmicro (now s) + 1) mod two32 else 0) in
              let (s', r) := schedule_at_tag p s tr t in
              (s', [match r with
                    | Put u => Resumes (eid e) tr (etag e) u (now s)
                    | Past => Refused (eid e) tr (etag e) t (now s)
                    | AfterStop => TooLate (eid e) tr (etag e) t (now s)
                    | ByPolicy => Merged (eid e) tr (etag e) t (now s)
                    end])
            else (s, [Overflows (eid e) tr (etag e) (now s)])) -> filed s (fst r) (snd r)) as G.
  { intros r ->. destruct b; [apply filed_none; now intros x [<-|[]]|]. cbv zeta. destruct (_ && _); [|apply filed_none; now intros x [<-|[]]].
    set (t := mkTag _ _). unfold schedule_at_tag. destruct (tag_compare t (now s) <=? 0); [apply filed_none; now intros x [<-|[]]|].
    destruct (0 <? tag_compare t (stop s)); [apply filed_none; now intros x [<-|[]]|]. destruct (found (q s) tr t).
    - destruct (pol p tr); try (apply filed_none; now intros x [<-|[]]). destruct (0 <? tag_compare (bump t) (stop s)); [apply filed_none; now intros x [<-|[]]|].
      split; [intros e' He; now right|]. intros x [<-|[]]. apply filed_push.
    - split; [intros e' He; now right|]. intros x [<-|[]]. apply filed_push. }
  destruct c; [now apply G| |now apply G].
  destruct (is_timer p tr).
  - pose proof (restart_filed s tr) as (A & B). destruct (restart p s tr) as [s1 l]. cbn [fst snd] in *. split; [exact A|]. intros x [<-|Hx]; [exact I|now apply B].
  - apply filed_none. now intros x [<-|[]].
Qed.
Lemma each_filed {A} (f : state -> A -> state * list event) l : (forall s a, filed s (fst (f s a)) (snd (f s a))) -> forall s, filed s (fst (each f l s)) (snd (each f l s)).
Proof.
  intros H. induction l as [|a l IH]; intros s; cbn [each]; [apply filed_nil|]. specialize (H s a). destruct (f s a) as [s1 e1]. specialize (IH s1). destruct (each f l s1) as [s2 e2]. cbn [fst snd] in *. eapply filed_trans; eassumption.
Qed.
Lemma enter_filed s i : filed s (fst (enter p s i)) (snd (enter p s i)).
Proof.
  unfold enter. cbv zeta. destruct (cascade_next s i) as (_ & Cq & _). set (c := cascade p s i) in *.
  assert (filed s c []) as F0 by (split; [now rewrite Cq|intros x []]).
  destruct (next c i) as [m|]; [|exact F0].
  set (r := match chg c i with Reset => _ | _ => _ end).
  assert (filed c (fst r) (snd r)) as F1. { unfold r. destruct (chg c i); try apply filed_nil. apply each_filed. intros s' tr. destruct (_ && _); [apply restart_filed|apply filed_nil]. }
  destruct r as [s1 e1]. cbn [fst snd] in F1. set (s2 := mkState _ _ _ _ _ (q s1) _ _ _ _ _ _ _).
  assert (filed s1 s2 []) as F2 by (split; [auto|intros x []]).
  pose proof (each_filed (wake p m (chg s1 i) (Nat.eqb m (cur s1 i))) (filter (in_mode p m) (susp s1)) (wake_filed _ _ _) s2) as F3. destruct (each _ _ s2) as [s3 e3]. cbn [fst snd] in *.
  change (e1 ++ e3) with ([] ++ e1 ++ [] ++ e3). eapply filed_trans; [exact F0|]. eapply filed_trans; [exact F1|]. eapply filed_trans; eassumption.
Qed.
Lemma process_filed s m x : In x (snd (process p s)) -> act (flags (fst (process p s)) m) = true ->
  match x with Resumes _ tr _ u _ | Restarts tr u _ => tmode p tr = Some m -> in_queue (fst (process p s)) tr u | _ => True end.
Proof.
  unfold process. pose proof (each_filed (enter p) (reactors p) enter_filed s) as (_ & F). destruct (each (enter p) (reactors p) s) as [s1 e1]. cbn [fst snd] in F.
  destruct (existsb _ _).
  - destruct (each (switch p) (reactors p) s1) as [s2 e2] eqn:E2. cbn [retract fst snd].
    assert (q s2 = q s1 /\ forall x, In x e2 -> match x with Entered _ _ _ => True | _ => False end) as (Q2 & N2).
    { change (q (fst (s2, e2)) = q s1 /\ forall x, In x (snd (s2, e2)) -> match x with Entered _ _ _ => True | _ => False end). rewrite <- E2. generalize (reactors p). intros l. clear. revert s1. induction l as [|i l IH]; intros s1; cbn [each]; [split; [reflexivity|intros x []]|].
      pose proof (w_q _ _ _ _ (switch_spec p s1 i)) as Wq. pose proof (switch_events s1 i) as We. destruct (switch p s1 i) as [s2 e2]. cbn [fst snd] in *. destruct (IH s2) as (I1 & I2). destruct (each (switch p) l s2) as [s3 e3]. cbn [fst snd] in *.
      split; [congruence|]. intros x Hx. apply in_app_or in Hx. destruct Hx as [Hx|Hx]; [|now apply I2]. rewrite We in Hx. destruct (next s1 i); [|easy]. now destruct Hx as [<-|[]]. }
    set (s3 := mkState _ _ _ _ _ (filter _ _) _ _ _ _ _ _ _). intros Hx A.
    assert (act (flags s2 m) = true) as A2. { revert A. unfold dummy. now destruct (_ || _). }
    assert (forall tr u, in_queue s1 tr u -> tmode p tr = Some m -> in_queue (dummy s3) tr u) as K.
    { intros tr u (e & K1 & K2 & K3) T. exists e. split; [|auto]. assert (In e (q s3)) as K4.
      { apply filter_In. split; [now rewrite Q2|]. unfold inactive. rewrite K2, T. cbn [is_active]. now rewrite A2. }
      unfold dummy. destruct (_ || _); [now right|exact K4]. }
    apply in_app_or in Hx. destruct Hx as [Hx|Hx]; [specialize (F x Hx); destruct x; auto|].
    apply in_app_or in Hx. destruct Hx as [Hx|Hx]; [specialize (N2 x Hx); now destruct x|].
    apply in_flat_map in Hx. destruct Hx as (e & _ & Hx). destruct (etrig e); [|easy]. now destruct Hx as [<-|[]].
  - cbn [fst snd]. intros Hx _. specialize (F x Hx). destruct x; auto.
Qed.
End P.
