(** Proofs about modes: which modes are entered, and that an event is suspended once. *)
From Coq Require Import Permutation.
From Verif Require Import Base Tag TagSpec TagProofs.
From Verif Require TagBarrierProofs.
Import TagBarrierProofs.
From Verif Require Import Modes ModesSpec ModesProofs ModesEventsProofs.

Section P.
Variable p : program.
Hypothesis OK : program_ok p.

(** ** The transitions *)
Definition pair (s : state) (i : nat) : option (mode * change) := match next s i with Some m => Some (m, chg s i) | None => None end.

Record entering (s0 : state) (k : nat) (s : state) : Prop := {
  n_done : forall i, (i < k)%nat ->
    (forall m, parent p i = Some m -> pair s (owner p m) = Some (m, Reset) -> pair s i = Some (initial p i, Reset)) /\
    ((forall m, parent p i = Some m -> pair s (owner p m) <> Some (m, Reset)) -> pair s i = requested s0 i);
  n_todo : forall i, (k <= i)%nat -> pair s i = requested s0 i }.

Lemma cascade_pair s i : pair (cascade p s i) i = (match parent p i with Some m => match pair s (owner p m) with Some (m', Reset) => if Nat.eqb m' m then Some (initial p i, Reset) else pair s i | _ => pair s i end | None => pair s i end)
  /\ forall j, j <> i -> pair (cascade p s i) j = pair s j.
Proof.
  unfold cascade, pair. destruct (parent p i) as [m|]; [|auto]. destruct (next s (owner p m)) as [m'|]; [|auto]. destruct (chg s (owner p m)); auto. destruct (Nat.eqb m' m); [|auto].
  cbn [next chg]. rewrite !upd_same. split; [reflexivity|]. intros j Hj. now rewrite !upd_other.
Qed.

Lemma enter_entering s0 k s : (k < size p)%nat -> entering s0 k s -> entering s0 (S k) (fst (enter p s k)).
Proof.
  intros Hk [D T]. destruct (enter_keeps p s k) as (_ & _ & _ & _ & _ & _ & E7 & E8 & _). destruct (cascade_pair s k) as (C1 & C2).
  assert (forall i, pair (fst (enter p s k)) i = pair (cascade p s k) i) as E by (intros i; unfold pair; now rewrite E7, E8). split.
  - intros i Hi. destruct (Nat.eq_dec i k) as [->|Ne].
    + assert (forall m, parent p k = Some m -> pair (fst (enter p s k)) (owner p m) = pair s (owner p m)) as Ow. { intros m Pm. rewrite E, C2; [reflexivity|]. pose proof (po_parent _ OK _ _ Hk Pm). lia. }
      rewrite E, C1. rewrite (T k) by lia. split.
      * intros m Pm. rewrite (Ow m Pm), Pm. intros ->. now rewrite Nat.eqb_refl.
      * intros N. destruct (parent p k) as [m|] eqn:Pm; [|reflexivity]. specialize (N m eq_refl). rewrite (Ow m eq_refl) in N. destruct (pair s (owner p m)) as [[m' []]|]; try reflexivity. destruct (Nat.eqb_spec m' m); [now subst|reflexivity].
    + assert (forall m, parent p i = Some m -> pair (fst (enter p s k)) (owner p m) = pair s (owner p m)) as Ow. { intros m Pm. rewrite E, C2; [reflexivity|]. pose proof (po_parent _ OK i _ ltac:(lia) Pm). lia. }
      rewrite E, C2 by exact Ne. destruct (D i ltac:(lia)) as (D1 & D2). split.
      * intros m Pm. rewrite (Ow m Pm). now apply D1.
      * intros N. apply D2. intros m Pm. rewrite <- (Ow m Pm). now apply N.
  - intros i Hi. rewrite E, C2 by lia. apply T. lia.
Qed.

Lemma dummy_cur s : cur (dummy s) = cur s /\ next (dummy s) = next s. Proof. unfold dummy. destruct (_ || _); auto. Qed.

Lemma process_pair s : good p s -> let s' := fst (process p s) in let go := pair (fst (each (enter p) (seq 0 (size p)) s)) in
  transitions p s go /\
    (forall i, (i < size p)%nat -> cur s' i = (match go i with Some (m, _) => m | None => cur s i end) /\ next s' i = None) /\
    (forall m c at_, In (Entered m c at_) (snd (process p s)) <-> at_ = now s /\ exists i, (i < size p)%nat /\ go i = Some (m, c)).
Proof.
  intros G. cbv zeta. assert (entering s 0 s) as N0 by (split; [lia|reflexivity]).
  assert (entering s (size p) (fst (each (enter p) (seq 0 (size p)) s)) /\ own p (fst (each (enter p) (seq 0 (size p)) s)) /\ cur (fst (each (enter p) (seq 0 (size p)) s)) = cur s /\ flags (fst (each (enter p) (seq 0 (size p)) s)) = flags s /\ now (fst (each (enter p) (seq 0 (size p)) s)) = now s) as (N1 & O1 & C1 & F1 & W1).
  { refine (each_seq (fun k s1 _ => entering s k s1 /\ own p s1 /\ cur s1 = cur s /\ flags s1 = flags s /\ now s1 = now s) (enter p) (size p) _ s [] _); [|split; [exact N0|split; [apply G|auto]]].
    intros k s1 _ Hk (A & B & C & D & E). destruct (enter_keeps p s1 k) as (E1 & E2 & _ & E4 & _). split; [now apply enter_entering|]. split; [now apply enter_own|]. repeat split; congruence. }
  assert (forall x, In x (snd (each (enter p) (seq 0 (size p)) s)) -> match x with Entered _ _ _ => False | _ => True end) as X1.
  { pose proof (each_inv (fun _ es => forall x, In x es -> match x with Entered _ _ _ => False | _ => True end) (enter p) (seq 0 (size p))) as K. change (snd (each (enter p) (seq 0 (size p)) s)) with ([] ++ snd (each (enter p) (seq 0 (size p)) s)). apply K; [|intros x []].
    clear. intros s es i _ H x Hx. apply in_app_or in Hx. destruct Hx as [Hx|Hx]; [now apply H|].
    assert (forall s tr x, In x (snd (restart p s tr)) -> match x with Entered _ _ _ => False | _ => True end) as Hr.
    { clear. intros s tr x. unfold restart. destruct (schedule_timer p s tr (offset p tr)) as [s' [t|]]; [|intros []]. now intros [<-|[]]. }
    revert Hx. unfold enter. cbv zeta. set (c := cascade p s i). destruct (next c i) as [m|]; [|intros []]. set (r := match chg c i with Reset => _ | _ => _ end).
    assert (forall x, In x (snd r) -> match x with Entered _ _ _ => False | _ => True end) as R1.
    { unfold r. destruct (chg c i); try (intros y []). pose proof (each_inv (fun _ es => forall x, In x es -> match x with Entered _ _ _ => False | _ => True end) (fun s tr => if (period p tr =? 0) && (match tmode p tr with Some m' => Nat.eqb m' m | None => false end) then restart p s tr else (s, [])) (timers p)) as K. refine (K _ c [] _); [|intros y []].
      intros s' es' tr _ H' y Hy. apply in_app_or in Hy. destruct Hy as [Hy|Hy]; [now apply H'|]. destruct (_ && _) in Hy; [now apply (Hr s' tr)|easy]. }
    destruct r as [s1 e1]. cbn [snd] in R1. set (s2 := mkState _ _ _ _ _ _ (filter _ _) _ _ _ _ _ _).
    pose proof (each_inv (fun _ es => forall x, In x es -> match x with Entered _ _ _ => False | _ => True end) (wake p m (chg s1 i) (Nat.eqb m (cur s1 i))) (filter (in_mode p m) (susp s1))) as K.
    assert (forall x, In x (snd (each (wake p m (chg s1 i) (Nat.eqb m (cur s1 i))) (filter (in_mode p m) (susp s1)) s2)) -> match x with Entered _ _ _ => False | _ => True end) as R2.
    { refine (K _ s2 [] _); [|intros y []]. intros s' es' e _ H' y Hy. apply in_app_or in Hy. destruct Hy as [Hy|Hy]; [now apply H'|]. revert Hy. unfold wake. destruct (etrig e) as [tr|]; [|intros []].
      assert (In y (snd (if Nat.eqb m (cur s1 i) then (s', [Discards (eid e) tr (etag e) (now s')]) else
            let remaining := ttime (etag e) - (if deact s' m =? 0 then start s' else deact s' m) in
            if in_int64b remaining && in_int64b (ttime (now s') + remaining) then
              let t := mkTag (ttime (now s') + remaining) (if remaining =? 0 then (tmicro (now s') + 1) mod two32 else 0) in
              let (s'', r) := schedule_at_tag p s' tr t in
              (s'', [match r with
                    | Put u => Resumes (eid e) tr (etag e) u (now s')
                    | Past => Refused (eid e) tr (etag e) t (now s')
                    | AfterStop => TooLate (eid e) tr (etag e) t (now s')
                    | ByPolicy => Merged (eid e) tr (etag e) t (now s')
                    end])
            else (s', [Overflows (eid e) tr (etag e) (now s')]))) -> match y with Entered _ _ _ => False | _ => True end) as W.
      { destruct (Nat.eqb m (cur s1 i)); [now intros [<-|[]]|]. cbv zeta. destruct (_ && _); [|now intros [<-|[]]]. destruct (schedule_at_tag p s' tr _) as [s'' res]. intros [<-|[]]. now destruct res. }
      destruct (chg s1 i); [exact W| |exact W]. destruct (is_timer p tr); [|now intros [<-|[]]]. specialize (Hr s' tr y). destruct (restart p s' tr) as [s'' l]. cbn [snd] in Hr. intros [<-|Hy]; [exact I|exact (Hr Hy)]. }
    destruct (each _ _ s2) as [s3 e3]. cbn [snd] in *. intros Hx. apply in_app_or in Hx. destruct Hx as [Hx|Hx]; [now apply R1|now apply R2]. }
  unfold process. change (reactors p) with (seq 0 (size p)). destruct (each (enter p) (seq 0 (size p)) s) as [s1 e1]. cbn [fst snd] in *.
  split; [intros i Hi; apply (n_done _ _ _ N1 i Hi)|].
  destruct (existsb (fun i => match next s1 i with Some _ => true | None => false end) (seq 0 (size p))) eqn:X.
  - assert (half p 0 s1) as Ha0. { split; [exact O1|lia|]. intros m Hm A. rewrite F1 in A. rewrite C1. apply (proj2 G) in A; [tauto|lia]. }
    assert (pass2 p s1 0 s1 []) as T0.
    { split; auto.
      - intros m Hm. cbn. now destruct (next s1 (owner p m)).
      - intros x. split; [intros []|]. intros (i & _ & Hi & _). lia. }
    pose proof (each_seq (pass2 p s1) (switch p) (size p) (fun k s2 es2 Hk => switch_pass2 p OK s1 k s2 es2 O1 Hk) s1 [] T0) as T1.
    destruct (each (switch p) (seq 0 (size p)) s1) as [s2 e2]. cbn [fst snd app] in T1. destruct T1 as [T1 T2 T3 T4 T5 T10 T11].
    cbn [retract fst snd]. set (s3 := mkState _ _ _ _ _ (filter _ _) _ _ _ _ _ _ _). destruct (dummy_cur s3) as (Dc & Dn). rewrite Dc, Dn. split.
    + intros i Hi. change (cur s3) with (cur s2). change (next s3) with (next s2). rewrite T2, T3 by exact Hi. replace (i <? size p)%nat with true by (symmetry; now apply Nat.ltb_lt). split; [|reflexivity].
      unfold target, pair. rewrite C1. now destruct (next s1 i).
    + intros m c at_. split.
      * intros H. apply in_app_or in H. destruct H as [H|H]; [destruct (X1 _ H)|]. apply in_app_or in H. destruct H as [H|H].
        -- apply T11 in H. destruct H as (i & m' & Hi & Hn & E). injection E as <- -> ->. split; [exact W1|]. exists i. split; [exact Hi|]. unfold pair. now rewrite Hn.
        -- apply in_flat_map in H. destruct H as (e & _ & H). destruct (etrig e); [|easy]. destruct H as [H|[]]. discriminate.
      * intros (-> & i & Hi & Hp). apply in_or_app. right. apply in_or_app. left. apply T11. unfold pair in Hp. destruct (next s1 i) as [m'|] eqn:N; [|discriminate]. injection Hp as <- <-. exists i, m'. rewrite W1. auto.
  - cbn [fst snd]. assert (forall i, (i < size p)%nat -> next s1 i = None) as Nn.
    { intros i Hi. destruct (next s1 i) as [m|] eqn:N; [|reflexivity]. assert (existsb (fun i => match next s1 i with Some _ => true | None => false end) (seq 0 (size p)) = true); [|congruence].
      apply existsb_exists. exists i. split; [apply in_seq; lia|now rewrite N]. }
    split.
    + intros i Hi. unfold pair. rewrite Nn, C1 by exact Hi. auto.
    + intros m c at_. split; [intros H; destruct (X1 _ H)|]. intros (_ & i & Hi & Hp). unfold pair in Hp. rewrite Nn in Hp by exact Hi. discriminate.
Qed.
Lemma process_switch s : good p s -> let s' := fst (process p s) in
  exists go, transitions p s go /\
    (forall i, (i < size p)%nat -> cur s' i = (match go i with Some (m, _) => m | None => cur s i end) /\ next s' i = None) /\
    (forall m c at_, In (Entered m c at_) (snd (process p s)) <-> at_ = now s /\ exists i, (i < size p)%nat /\ go i = Some (m, c)).
Proof. intros G. cbv zeta. eexists. apply process_pair, G. Qed.

(** ** Identities of events *)
Definition sids (es : list event) : list nat := flat_map (fun x => match x with Suspends id _ _ _ => [id] | _ => [] end) es.
Lemma sids_app a b : sids (a ++ b) = sids a ++ sids b. Proof. apply flat_map_app. Qed.
Lemma sids_none l : (forall x, In x l -> match x with Suspends _ _ _ _ => False | _ => True end) -> sids l = [].
Proof. induction l as [|x l IH]; intros H; [reflexivity|]. change (x :: l) with ([x] ++ l). rewrite sids_app, IH by (intros y Hy; apply H; now right). specialize (H x (or_introl eq_refl)). now destruct x. Qed.

Record ids (s : state) (es : list event) : Prop := {
  d_nodup : NoDup (map eid (q s ++ susp s));
  d_fresh : forall e, In e (q s ++ susp s) -> (eid e < fresh s)%nat;
  d_old : forall id, In id (sids es) -> (id < fresh s)%nat /\ ~ In id (map eid (q s));
  d_once : NoDup (sids es) }.

Lemma ids_push s es e : eid e = fresh s -> ids s es -> ids (set_q s (e :: q s) (S (fresh s))) es.
Proof.
  intros E [A B C D]. split; cbn [q susp fresh set_q app map].
  - constructor; [|exact A]. rewrite E. intros H. apply in_map_iff in H. destruct H as (x & X1 & X2). specialize (B x X2). lia.
  - intros x [<-|Hx]; [lia|]. specialize (B x Hx). lia.
  - intros id H. destruct (C id H) as (C1 & C2). split; [lia|]. intros [K|K]; [lia|now apply C2].
  - exact D.
Qed.
Lemma ids_more s es l : sids l = [] -> ids s es -> ids s (es ++ l).
Proof. intros L [A B C D]. assert (sids (es ++ l) = sids es) as E by now rewrite sids_app, L, app_nil_r. split; auto; rewrite E; auto. Qed.
Lemma ids_ext s s' es : q s' = q s -> susp s' = susp s -> fresh s' = fresh s -> ids s es -> ids s' es.
Proof. intros E1 E2 E3 [A B C D]. split; rewrite ?E1, ?E2, ?E3; auto. Qed.
Lemma nodup_map_incl {A} (f : A -> nat) (l l' : list A) : NoDup (map f l) -> (forall x, In x l' -> In x l) -> NoDup l' -> NoDup (map f l').
Proof.
  intros N I D. induction l' as [|a l' IH]; cbn; [constructor|]. apply NoDup_cons_iff in D. destruct D as (D1 & D2). constructor; [|apply IH; [intros x Hx; apply I; now right|exact D2]].
  intros H. apply in_map_iff in H. destruct H as (b & B1 & B2). assert (a = b) as E; [|subst b; contradiction].
  assert (In a l) as Ia by (apply I; now left). assert (In b l) as Ib by (apply I; now right). clear -N Ia Ib B1.
  induction l as [|x l IH]; [easy|]. cbn in N. apply NoDup_cons_iff in N. destruct N as (N1 & N2). destruct Ia as [->|Ia], Ib as [->|Ib]; auto.
  - destruct N1. rewrite <- B1. now apply in_map.
  - destruct N1. rewrite B1. now apply in_map.
Qed.
Lemma nodup_of_map {A} (f : A -> nat) l : NoDup (map f l) -> NoDup l.
Proof. apply NoDup_map_inv. Qed.

Lemma ids_filter s s' es f g : q s' = filter f (q s) -> susp s' = filter g (susp s) -> fresh s' = fresh s -> ids s es -> ids s' es.
Proof.
  intros E1 E2 E3 [A B C D].
  assert (forall e, In e (q s' ++ susp s') -> In e (q s ++ susp s)) as Sub. { intros e H. rewrite E1, E2 in H. apply in_app_or in H. apply in_or_app. destruct H as [H|H]; apply filter_In in H; tauto. }
  split.
  - eapply nodup_map_incl; [exact A|exact Sub|]. rewrite E1, E2. apply nodup_of_map in A. clear -A. induction (q s) as [|a l IH]; cbn in *.
    + now apply NoDup_filter.
    + apply NoDup_cons_iff in A. destruct A as (A1 & A2). destruct (f a); [|auto]. constructor; [|auto]. intros H. apply A1. apply in_app_or in H. apply in_or_app. destruct H as [H|H]; apply filter_In in H; tauto.
  - intros e He. rewrite E3. apply B, Sub, He.
  - intros id H. rewrite E3. destruct (C id H) as (C1 & C2). split; [exact C1|]. intros K. apply C2. rewrite E1 in K. apply in_map_iff in K. destruct K as (x & X1 & X2). apply filter_In in X2. apply in_map_iff. exists x. tauto.
  - exact D.
Qed.
Lemma ids_perm s l es : Permutation (q s) l -> ids s es -> ids (set_q s l (fresh s)) es.
Proof.
  intros P [A B C D]. split; cbn [q susp fresh set_q].
  - eapply Permutation_NoDup; [|exact A]. apply Permutation_map, Permutation_app_tail, P.
  - intros e He. apply B. eapply Permutation_in; [|exact He]. apply Permutation_sym, Permutation_app_tail, P.
  - intros id H. destruct (C id H) as (C1 & C2). split; [exact C1|]. intros K. apply C2. eapply Permutation_in; [|exact K]. apply Permutation_sym, Permutation_map, P.
  - exact D.
Qed.

Lemma restart_ids s es tr : ids s es -> ids (fst (restart p s tr)) (es ++ snd (restart p s tr)).
Proof.
  intros I. unfold restart, schedule_timer. cbv zeta. set (t := if tag_compare _ _ =? 0 then _ else _). destruct (0 <? tag_compare t (stop s)); cbn [fst snd]; [now rewrite app_nil_r|].
  apply ids_more; [reflexivity|]. now apply ids_push.
Qed.
Lemma wake_ids m c b s es e : ids s es -> ids (fst (wake p m c b s e)) (es ++ snd (wake p m c b s e)).
Proof.
  intros I. unfold wake. destruct (etrig e) as [tr|]; [|cbn; now rewrite app_nil_r].
  assert (forall (r : state * list event), r = (if b then (s, [Discards (eid e) tr (etag e) (now s)]) else
            let remaining := ttime (etag e) - (if deact s m =? 0 then start s else deact s m) in
            if in_int64b remaining && in_int64b (ttime (now s) + remaining) then
              let t := mkTag (ttime (now s) + remaining) (if remaining =? 0 then (tmicro (now s) + 1) mod two32 else 0) in
              let (s', r) := schedule_at_tag p s tr t in
              (s', [match r with
                    | Put u => Resumes (eid e) tr (etag e) u (now s)
                    | Past => Refused (eid e) tr (etag e) t (now s)
                    | AfterStop => TooLate (eid e) tr (etag e) t (now s)
                    | ByPolicy => Merged (eid e) tr (etag e) t (now s)
                    end])
            else (s, [Overflows (eid e) tr (etag e) (now s)])) -> ids (fst r) (es ++ snd r)) as G.
  { intros r ->. destruct b; [now apply ids_more|]. cbv zeta. destruct (_ && _); [|now apply ids_more].
    set (t := mkTag _ _). unfold schedule_at_tag. destruct (tag_compare t (now s) <=? 0); [now apply ids_more|]. destruct (0 <? tag_compare t (stop s)); [now apply ids_more|]. destruct (found (q s) tr t).
    - destruct (pol p tr); try now apply ids_more. destruct (0 <? tag_compare (bump t) (stop s)); [now apply ids_more|]. apply ids_more; [reflexivity|now apply ids_push].
    - apply ids_more; [reflexivity|now apply ids_push]. }
  destruct c; [now apply G| |now apply G]. destruct (is_timer p tr); [|now apply ids_more].
  pose proof (restart_ids s (es ++ [Discards (eid e) tr (etag e) (now s)]) tr (ids_more _ _ [Discards (eid e) tr (etag e) (now s)] eq_refl I)) as R. destruct (restart p s tr) as [s1 l]. cbn [fst snd] in *. now rewrite <- app_assoc in R.
Qed.
Lemma enter_ids s es i : ids s es -> ids (fst (enter p s i)) (es ++ snd (enter p s i)).
Proof.
  intros I. unfold enter. cbv zeta. assert (ids (cascade p s i) es) as I0. { eapply ids_ext; [| | |exact I]; destruct (cascade_spec p s i) as [-> |(-> & _)]; reflexivity. }
  set (c := cascade p s i) in *. destruct (next c i) as [m|]; [|cbn; now rewrite app_nil_r].
  set (r := match chg c i with Reset => _ | _ => _ end).
  assert (ids (fst r) (es ++ snd r)) as I1.
  { unfold r. destruct (chg c i); try (cbn; now rewrite app_nil_r). apply (each_inv ids); [|exact I0]. intros s' es' tr _ I'. destruct (_ && _); [now apply restart_ids|cbn; now rewrite app_nil_r]. }
  destruct r as [s1 e1]. cbn [fst snd] in I1. set (s2 := mkState _ _ _ _ _ (q s1) _ _ _ _ _ _ _).
  assert (ids s2 (es ++ e1)) as I2. { apply (ids_filter s1 s2 _ (fun _ => true) (fun e => negb (in_mode p m e))); [|reflexivity|reflexivity|exact I1]. cbn. clear. induction (q s1) as [|a l IH]; [reflexivity|]. cbn. now f_equal. }
  pose proof (each_inv ids (wake p m (chg s1 i) (Nat.eqb m (cur s1 i))) (filter (in_mode p m) (susp s1)) (fun s' es' e _ => wake_ids _ _ _ s' es' e) s2 _ I2) as I3.
  destruct (each _ _ s2) as [s3 e3]. cbn [fst snd] in *. now rewrite <- app_assoc in I3.
Qed.
Lemma switch_ids s es i : ids s es -> ids (fst (switch p s i)) (es ++ snd (switch p s i)).
Proof.
  intros I. pose proof (switch_spec p s i) as W. rewrite switch_events. apply ids_more; [destruct (next s i); reflexivity|].
  eapply ids_ext; [apply (w_q _ _ _ _ W)|apply (w_susp _ _ _ _ W)|apply (w_fresh _ _ _ _ W)|exact I].
Qed.
Lemma retract_ids s es : ids s es -> ids (fst (retract p s)) (es ++ snd (retract p s)).
Proof.
  intros [A B C D]. cbn [retract fst snd]. set (f := inactive p s).
  assert (Permutation (q s) (filter (fun e => negb (f e)) (q s) ++ filter f (q s))) as Pm.
  { clear. induction (q s) as [|a l IH]; [constructor|]. cbn. destruct (f a); cbn; [now apply Permutation_cons_app|now constructor]. }
  set (e3 := flat_map _ _). assert (forall id, In id (sids e3) -> exists e, In e (filter f (q s)) /\ eid e = id) as S3.
  { intros id H. unfold sids, e3 in H. apply in_flat_map in H. destruct H as (x & X1 & X2). apply in_flat_map in X1. destruct X1 as (e & E1 & E2). destruct (etrig e); [|easy]. destruct E2 as [<-|[]]. destruct X2 as [<-|[]]. exists e. auto. }
  assert (NoDup (map eid (q s))) as Nq. { rewrite map_app in A. clear -A. induction (map eid (q s)) as [|a l IH]; [constructor|]. cbn in A. apply NoDup_cons_iff in A. destruct A as (A1 & A2). constructor; [|auto]. intros H. apply A1, in_or_app. now left. }
  split; cbn [q susp fresh].
  - eapply Permutation_NoDup; [|exact A]. apply Permutation_map. rewrite app_assoc. apply Permutation_app_tail. eapply Permutation_trans; [exact Pm|]. apply Permutation_app_head, Permutation_rev.
  - intros e H. apply B. apply in_app_or in H. apply in_or_app. destruct H as [H|H]; [left; now apply filter_In in H|]. apply in_app_or in H. destruct H as [H|H]; [left; apply in_rev in H; now apply filter_In in H|now right].
  - intros id H. rewrite sids_app in H. apply in_app_or in H. destruct H as [H|H].
    + destruct (C id H) as (C1 & C2). split; [exact C1|]. intros K. apply C2. apply in_map_iff in K. destruct K as (x & X1 & X2). apply filter_In in X2. apply in_map_iff. exists x. tauto.
    + destruct (S3 id H) as (e & E1 & E2). split; [rewrite <- E2; apply B, in_or_app; left; now apply filter_In in E1|].
      intros K. rewrite <- E2 in K. apply in_map_iff in K. destruct K as (x & X1 & X2). apply filter_In in E1, X2. assert (x = e) as ->; [|destruct X2 as (_ & X2), E1 as (_ & E1); rewrite E1 in X2; discriminate].
      clear -Nq X1 X2 E1. destruct X2 as (X2 & _), E1 as (E1 & _). induction (q s) as [|a l IH]; [easy|]. cbn in Nq. apply NoDup_cons_iff in Nq. destruct Nq as (N1 & N2). destruct X2 as [->|X2], E1 as [->|E1]; auto.
      * destruct N1. rewrite X1. now apply in_map.
      * destruct N1. rewrite <- X1. now apply in_map.
  - rewrite sids_app. assert (forall id, In id (sids e3) -> In id (map eid (q s))) as S4. { intros id H. destruct (S3 id H) as (e & E1 & <-). apply in_map. now apply filter_In in E1. }
    assert (NoDup (sids e3)) as N3.
    { unfold e3. clear -Nq. induction (q s) as [|a l IH]; [constructor|]. cbn [map] in Nq. apply NoDup_cons_iff in Nq. destruct Nq as (N1 & N2). cbn [filter]. destruct (f a); [|auto]. cbn [flat_map]. rewrite sids_app. destruct (etrig a); [|apply IH, N2]. cbn [sids flat_map app]. constructor; [|apply IH, N2].
      intros H. apply N1. unfold sids in H. apply in_flat_map in H. destruct H as (x & X1 & X2). apply in_flat_map in X1. destruct X1 as (e & E1 & E2). destruct (etrig e); [|easy]. destruct E2 as [<-|[]]. destruct X2 as [X2|[]]. rewrite <- X2. apply in_map. now apply filter_In in E1. }
    clear -D N3 S4 C. induction (sids es) as [|a l IH]; [exact N3|]. cbn. apply NoDup_cons_iff in D. destruct D as (D1 & D2). constructor; [|apply IH; [|exact D2]; intros id H; apply C; now right].
    intros H. apply in_app_or in H. destruct H as [H|H]; [contradiction|]. apply (C a (or_introl eq_refl)). auto.
Qed.

Lemma process_ids s es : ids s es -> ids (fst (process p s)) (es ++ snd (process p s)).
Proof.
  intros I. unfold process. pose proof (each_inv ids (enter p) (reactors p) (fun s' es' i _ => enter_ids s' es' i) s es I) as I1. destruct (each (enter p) (reactors p) s) as [s1 e1]. cbn [fst snd] in I1.
  destruct (existsb _ _); [|exact I1].
  pose proof (each_inv ids (switch p) (reactors p) (fun s' es' i _ => switch_ids s' es' i) s1 _ I1) as I2. destruct (each (switch p) (reactors p) s1) as [s2 e2]. cbn [fst snd] in I2.
  pose proof (retract_ids s2 _ I2) as I3. destruct (retract p s2) as [s3 e3]. cbn [fst snd] in *. rewrite <- !app_assoc in I3. unfold dummy. destruct (_ || _); [now apply ids_push|exact I3].
Qed.

Lemma step_ids s es o s' l : ids s es -> allowed p s o -> step p s o = Some (s', l) -> ids s' (es ++ l).
Proof.
  intros I A H. destruct o as [i m c|tr t|l0|t]; cbn [step allowed] in *.
  - injection H as <- <-. rewrite app_nil_r. eapply ids_ext; [| | |exact I]; reflexivity.
  - injection H as <- <-. rewrite app_nil_r. now apply ids_push.
  - injection H as <- <-. rewrite app_nil_r. now apply ids_perm.
  - pose proof (process_ids s es I) as I1. destruct (process p s) as [s1 e1]. cbn [fst snd] in I1. destruct (_ && _) in H; [|discriminate]. injection H as <- <-.
    set (s2 := mkState _ _ _ _ _ (filter _ _) _ _ _ _ _ _ _). destruct (handled_same p s2) as (H1 & H2 & _ & _ & _ & _ & H7). eapply ids_ext; [exact H1|exact H2|exact H7|].
    apply (ids_filter s1 s2 _ (fun e => negb (tag_compare (etag e) t =? 0)) (fun _ => true)); [reflexivity| |reflexivity|exact I1]. cbn. clear. induction (susp s1) as [|a l IH]; [reflexivity|]. cbn. now f_equal.
Qed.

Lemma init_ids t0 st : ids (fst (init p t0 st)) (snd (init p t0 st)).
Proof.
  unfold init. set (s0 := mkState _ _ _ _ _ [] [] _ _ _ _ _ _). set (s1 := handled p (fold_left (enable p) (reactors p) s0)).
  assert (q s1 = [] /\ susp s1 = []) as (Q1 & Q2).
  { unfold s1. destruct (handled_same p (fold_left (enable p) (reactors p) s0)) as (H1 & H2 & _). rewrite H1, H2.
    assert (forall l s, q (fold_left (enable p) l s) = q s /\ susp (fold_left (enable p) l s) = susp s) as K.
    { induction l as [|i l IH]; intros s; cbn [fold_left]; [auto|]. destruct (IH (enable p s i)) as (A1 & A2). rewrite A1, A2. unfold enable. destruct (is_active s (parent p i)); cbn; auto. }
    destruct (K (reactors p) s0) as (A1 & A2). rewrite A1, A2. auto. }
  set (P := fun s es => q s = [] /\ ids s es).
  assert (P (fst (each (init_timer p) (timers p) s1)) ([] ++ snd (each (init_timer p) (timers p) s1))) as F.
  { apply (each_inv P).
    - intros s es tr _ (Pq & [A B C D]). rewrite Pq in *. cbn [app map] in *. unfold init_timer. destruct (is_active s (tmode p tr)); cbn [fst snd]; [rewrite app_nil_r; split; [exact Pq|split; rewrite ?Pq; auto]|].
      split; [exact Pq|]. split; cbn [q susp fresh]; rewrite ?Pq; cbn [app map].
      + constructor; [|exact A]. cbn. intros H. apply in_map_iff in H. destruct H as (x & X1 & X2). specialize (B x X2). lia.
      + intros e [<-|He]; cbn; [lia|]. specialize (B e He). lia.
      + intros id H. split; [|intros []]. rewrite sids_app in H. apply in_app_or in H. destruct H as [H|[<-|[]]]; [destruct (C id H); lia|lia].
      + rewrite sids_app. cbn. eapply Permutation_NoDup; [apply Permutation_cons_append|]. constructor; [|exact D]. intros H. destruct (C _ H). lia.
    - split; [exact Q1|]. split; rewrite ?Q1, ?Q2; cbn; [constructor|intros ? []|intros ? []|constructor]. }
  apply F.
Qed.
Lemma exec_ids t0 st s es : exec p t0 st s es -> ids s es.
Proof. intros X. induction X; [apply init_ids|]. eapply step_ids; eassumption. Qed.

Lemma once_of_ids es id a b c a' b' c' : NoDup (sids es) -> In (Suspends id a b c) es -> In (Suspends id a' b' c') es -> a = a' /\ b = b' /\ c = c'.
Proof.
  induction es as [|x es IH]; intros N H1 H2; [easy|].
  assert (forall a b c, In (Suspends id a b c) es -> In id (sids es)) as K. { intros a0 b0 c0 H. unfold sids. apply in_flat_map. eexists. split; [exact H|now left]. }
  assert (NoDup (sids es)) as N'. { cbn in N. destruct x; auto. cbn in N. now apply NoDup_cons_iff in N. }
  destruct H1 as [->|H1], H2 as [H2|H2]; auto.
  - injection H2 as -> -> ->. auto.
  - cbn in N. apply NoDup_cons_iff in N. destruct N as (N & _). destruct N. eapply K, H2.
  - rewrite H2 in N. cbn in N. apply NoDup_cons_iff in N. destruct N as (N & _). destruct N. eapply K, H1.
Qed.
End P.
