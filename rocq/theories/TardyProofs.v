(** Proofs about the flags of tardy messages. *)
From Coq Require Import Permutation.
From Verif Require Import Base Pqueue Tardy TardySpec.

Lemma mem_In x l : mem x l = true <-> In x l.
Proof. unfold mem. rewrite existsb_exists. split; [intros (y & Hy & E); apply Nat.eqb_eq in E; now subst|intros H; exists x; split; [exact H|apply Nat.eqb_refl]]. Qed.
Lemma upd_same {A} (f : nat -> A) i x : upd f i x i = x.
Proof. unfold upd. now rewrite Nat.eqb_refl. Qed.
Lemma upd_other {A} (f : nat -> A) i j x : j <> i -> upd f i x j = f j.
Proof. intros H. unfold upd. destruct (Nat.eqb_spec j i); [contradiction|]. now destruct (Nat.eqb_spec i j); [congruence|]. Qed.
Lemma trigger_flag s r : t_flag (trigger s r) = t_flag s /\ t_log (trigger s r) = t_log s /\ t_tag (trigger s r) = t_tag s /\ t_set (trigger s r) = t_set s.
Proof. unfold trigger. destruct (mem _ _); auto. Qed.
Lemma trigger_queue s r x : In x (t_queue (trigger s r)) <-> In x (t_queue s) \/ x = r.
Proof.
  unfold trigger. destruct (mem r (t_queue s)) eqn:E; cbn [t_queue In].
  - apply mem_In in E. split; [now left|intros [H| ->]; assumption].
  - split; intros [H|H]; auto.
Qed.
Lemma reached_mono l l' x : (forall e, In e l -> In e l') -> reached l x -> reached l' x.
Proof. intros H R. induction R as [r K|u c d K _ IH]; [apply reached_msg|apply (reached_by _ u c)]; auto. Qed.
Lemma tardy_mono l l' x : (forall e, In e l -> In e l') -> tardy l x -> tardy l' x.
Proof. intros H R. induction R as [r K|u c d K Hc _ IH]; [apply tardy_msg|apply (tardy_by _ u c)]; auto. Qed.
Lemma runs_app a b : runs (a ++ b) = runs a ++ runs b.
Proof. apply flat_map_app. Qed.
Lemma runs_in l r : In r (runs l) <-> exists c f, In (ERun r c f) l.
Proof.
  unfold runs. rewrite in_flat_map. split.
  - intros ([| |] & He & K); cbn in K; try contradiction. destruct K as [->|[]]. eauto.
  - intros (c & f & H). exists (ERun r c f). split; [exact H|now left].
Qed.

Section S.
Variable g : prog.
Notation enable := (enable g).
Notation schedule := (schedule g).
Notation invoke := (invoke g).
Notation work := (work g).

(** ** The loop over the outputs *)
Lemma enable_none r c b ds : forall s num s' num' now', num <> 0%nat -> fold_left (enable r c b) ds (s, num, None) = (s', num', now') -> now' = None.
Proof.
  induction ds as [|d ds IH]; intros s num s' num' now' Hn E; [cbn in E; congruence|]. cbn [fold_left] in E. unfold Tardy.enable in E at 2.
  destruct num as [|num]; [contradiction|]. change ((S (S num) =? 1)%nat) with false in E. cbn [andb] in E. eapply IH; [|exact E]. discriminate.
Qed.
Lemma enable_fold r c b ds : forall s num now s' num' now', (num = 0%nat -> now = None) ->
  fold_left (enable r c b) ds (s, num, now) = (s', num', now') ->
  t_tag s' = t_tag s /\ t_set s' = t_set s /\
  t_log s' = rev (map (ETrig r c) ds) ++ t_log s /\
  (forall x, t_flag s' x = if mem x ds then b else t_flag s x) /\
  (forall x, In x (t_queue s) -> In x (t_queue s')) /\
  (forall x, In x (t_queue s') -> In x (t_queue s) \/ In x ds \/ now = Some x) /\
  (forall d, In d ds \/ now = Some d -> In d (t_queue s') \/ now' = Some d) /\
  (forall d, now' = Some d -> t_queue s' = t_queue s /\ (now = Some d \/ In d ds /\ last_enabling g d = Some r)).
Proof.
  induction ds as [|d ds IH]; intros s num now s' num' now' Hn E.
  - cbn in E. injection E as <- <- <-. cbn. repeat split; auto.
    intros d0 [[]|H]; auto.
  - cbn [fold_left] in E. set (s1 := note (set_flag s d b) (ETrig r c d)) in *.
    assert (M : forall x, mem x (d :: ds) = (x =? d)%nat || mem x ds) by reflexivity.
    assert (F1 : forall x, t_flag s1 x = if (x =? d)%nat then b else t_flag s x).
    { intros x. unfold s1. cbn [note set_flag t_flag]. destruct (Nat.eqb_spec x d) as [->|n]; [apply upd_same|now apply upd_other]. }
    assert (Common : forall s2 now2 num2, num2 <> 0%nat -> t_tag s2 = t_tag s -> t_set s2 = t_set s -> t_log s2 = ETrig r c d :: t_log s -> (forall x, t_flag s2 x = t_flag s1 x) ->
       (forall x, In x (t_queue s) -> In x (t_queue s2)) -> (forall x, In x (t_queue s2) -> In x (t_queue s) \/ x = d \/ now = Some x) ->
       (forall y, y = d \/ now = Some y -> In y (t_queue s2) \/ now2 = Some y) ->
       (forall y, now2 = Some y -> t_queue s2 = t_queue s /\ (now = Some y \/ y = d /\ last_enabling g y = Some r)) ->
       fold_left (enable r c b) ds (s2, num2, now2) = (s', num', now') ->
       t_tag s' = t_tag s /\ t_set s' = t_set s /\ t_log s' = rev (map (ETrig r c) (d :: ds)) ++ t_log s /\
       (forall x, t_flag s' x = if mem x (d :: ds) then b else t_flag s x) /\ (forall x, In x (t_queue s) -> In x (t_queue s')) /\
       (forall x, In x (t_queue s') -> In x (t_queue s) \/ In x (d :: ds) \/ now = Some x) /\
       (forall d0, In d0 (d :: ds) \/ now = Some d0 -> In d0 (t_queue s') \/ now' = Some d0) /\
       (forall d0, now' = Some d0 -> t_queue s' = t_queue s /\ (now = Some d0 \/ In d0 (d :: ds) /\ last_enabling g d0 = Some r))).
    { intros s2 now2 num2 Hn2 T2 S2 L2 F2 Q2 Q2' C2 N2 E2. destruct (IH _ _ _ _ _ _ (fun K => False_ind _ (Hn2 K)) E2) as (A1 & A2 & A3 & A4 & A5 & A6 & A7 & A8).
      split; [congruence|]. split; [congruence|]. split; [rewrite A3, L2; cbn [map rev]; now rewrite <- app_assoc|].
      split; [intros x; rewrite A4, M, F2, F1; destruct (mem x ds), (x =? d)%nat; reflexivity|].
      split; [auto|]. split; [intros x Hx; cbn [In]; destruct (A6 x Hx) as [K|[K|K]]; [destruct (Q2' x K) as [K1|[K1|K1]]; auto|auto|]; destruct (N2 x K) as (_ & [K1|(K1 & _)]); auto|].
      split.
      - intros y Hy. assert (K : In y ds \/ (y = d \/ now = Some y)) by (destruct Hy as [[->|Hy]|Hy]; auto). destruct K as [K|K]; [apply A7; auto|]. destruct (C2 y K) as [K1|K1]; [left; auto|apply A7; auto].
      - intros y Hy. destruct (A8 y Hy) as (B1 & B2). destruct B2 as [B2|(B2 & B3)].
        + destruct (N2 y B2) as (D1 & [D2|(D2 & D3)]); (split; [congruence|]); [now left|right]. split; [now left|exact D3].
        + destruct now2 as [z|] eqn:En.
          * destruct (N2 z eq_refl) as (D1 & _). split; [congruence|]. right. split; [now right|exact B3].
          * apply enable_none in E2; [|exact Hn2]. congruence. }
    unfold Tardy.enable in E at 2. fold s1 in E.
    destruct (match now with Some x => (x =? d)%nat | None => false end) eqn:Sk.
    + destruct now as [x|]; [|discriminate]. apply Nat.eqb_eq in Sk. subst x. eapply (Common s1 (Some d) num); try exact E; try reflexivity; auto.
      * intros ->. now specialize (Hn eq_refl).
      * intros y [->|K]; auto.
    + destruct ((S num =? 1)%nat && match last_enabling g d with Some x => (x =? r)%nat | None => false end) eqn:Le.
      * apply andb_true_iff in Le. destruct Le as [L1 L2]. apply Nat.eqb_eq in L1. assert (num = 0%nat) by lia. specialize (Hn H). subst now.
        eapply (Common s1 (Some d) (S num)); try exact E; try reflexivity; auto.
        -- intros y [->|K]; [now right|discriminate].
        -- intros y K. injection K as <-. split; [reflexivity|right]. split; [reflexivity|]. destruct (last_enabling g d) as [x|]; [|discriminate]. apply Nat.eqb_eq in L2. congruence.
      * set (s2 := match now with Some x => trigger s1 x | None => s1 end) in *.
        assert (B : t_tag s2 = t_tag s /\ t_set s2 = t_set s /\ t_log s2 = ETrig r c d :: t_log s /\ t_flag s2 = t_flag s1 /\ (forall x, In x (t_queue s2) <-> In x (t_queue s) \/ now = Some x)).
        { unfold s2. destruct now as [x|].
          - destruct (trigger_flag s1 x) as (T1 & T2 & T3 & T4). rewrite T1, T2, T3, T4. repeat split; try reflexivity; intros; rewrite trigger_queue in *; change (t_queue s1) with (t_queue s) in *; intuition congruence.
          - repeat split; auto; intuition discriminate. }
        destruct B as (B1 & B2 & B3 & B4 & B5). destruct (trigger_flag s2 d) as (T1 & T2 & T3 & T4).
        eapply (Common (trigger s2 d) None (S num)); try exact E; try congruence; try discriminate.
        -- intros x Hx. apply trigger_queue. left. apply B5. now left.
        -- intros x Hx. apply trigger_queue in Hx. destruct Hx as [Hx|Hx]; [apply B5 in Hx; destruct Hx; auto|auto].
        -- intros y Hy. left. apply trigger_queue. destruct Hy as [->|Hy]; [now right|left]. apply B5. now right.
Qed.

(** ** No false alarms *)
Record R (act : list nat) (s : tst) : Prop := mkR {
  R_reached : forall r, t_flag s r = true -> reached (t_log s) r;
  R_queue : forall r, t_flag s r = true -> In r (t_queue s) \/ In r act;
  R_run : forall r c f, In (ERun r c f) (t_log s) -> (f = true -> reached (t_log s) r) /\ (c = Stp -> f = true /\ handler g r = true) }.

Lemma R_invoke act s r c : R act s -> (c = Stp -> t_flag s r = true /\ handler g r = true) -> R act (invoke s r c (t_flag s r)).
Proof.
  intros [A B C] Hc. unfold Tardy.invoke. constructor; cbn [t_flag t_log t_queue]; auto.
  - intros x Hx. apply (reached_mono (t_log s)); [now right|auto].
  - intros x c' f [K|K].
    + injection K as <- <- <-. split; [|exact Hc]. intros Hf. apply (reached_mono (t_log s)); [now right|auto].
    + destruct (C x c' f K) as [D1 D2]. split; [|exact D2]. intros Hf. apply (reached_mono (t_log s)); [now right|auto].
Qed.
Lemma R_clear act s d : R (d :: act) s -> R act (set_flag s d false).
Proof.
  intros [A B C]. constructor; cbn [set_flag t_flag t_log t_queue]; [| |exact C].
  - intros r Hr. destruct (Nat.eq_dec r d) as [->|n]; [rewrite upd_same in Hr; discriminate|rewrite upd_other in Hr by exact n; auto].
  - intros r Hr. destruct (Nat.eq_dec r d) as [->|n]; [rewrite upd_same in Hr; discriminate|rewrite upd_other in Hr by exact n]. destruct (B r Hr) as [K|[K|K]]; auto. congruence.
Qed.
Lemma R_less act act' s : (forall x, In x act -> In x act') -> R act s -> R act' s.
Proof. intros H [A B C]. constructor; auto. intros r Hr. destruct (B r Hr); auto. Qed.

Lemma R_schedule (Hm : no_missed_deadlines g) n : forall act s r c s', R act s -> schedule n s r c = Some s' -> R act s'.
Proof.
  induction n as [|n IH]; intros act s r c s' HR E; [discriminate|]. cbn [Tardy.schedule] in E.
  destruct (fold_left (enable r c (t_flag s r)) (downstream g s r) (s, 0%nat, None)) as [[s1 num] now] eqn:Ef.
  destruct (enable_fold r c (t_flag s r) (downstream g s r) s 0%nat None s1 num now (fun _ => eq_refl) Ef) as (A1 & A2 & A3 & A4 & A5 & A6 & A7 & A8).
  assert (L1 : forall e, In e (t_log s) -> In e (t_log s1)) by (intros e He; rewrite A3; apply in_or_app; now right).
  destruct HR as [R1 R2 R3].
  assert (HR1 : R (match now with Some d => d :: act | None => act end) s1).
  { constructor.
    - intros x Hx. rewrite A4 in Hx. destruct (mem x (downstream g s r)) eqn:M.
      + apply mem_In in M. apply (reached_by _ r c); [rewrite A3; apply in_or_app; left; rewrite <- in_rev; now apply in_map|]. apply (reached_mono (t_log s)); auto.
      + apply (reached_mono (t_log s)); auto.
    - intros x Hx. rewrite A4 in Hx. destruct (mem x (downstream g s r)) eqn:M.
      + apply mem_In in M. destruct (A7 x (or_introl M)) as [K| ->]; [now left|right; now left].
      + destruct (R2 x Hx) as [K|K]; [left; auto|right]. destruct now; [now right|exact K].
    - intros x c' f K. assert (K' : In (ERun x c' f) (t_log s)).
      { rewrite A3 in K. apply in_app_or in K. destruct K as [K|K]; [|exact K]. rewrite <- in_rev in K. apply in_map_iff in K. destruct K as (? & K & _). discriminate. }
      destruct (R3 x c' f K') as [D1 D2]. split; [|exact D2]. intros Hf. apply (reached_mono (t_log s)); auto. }
  destruct now as [d|]; [|now injection E as <-]. cbv zeta in E.
  destruct (t_flag s1 d && handler g d) eqn:St.
  - apply andb_true_iff in St. destruct (schedule n (invoke s1 d Stp (t_flag s1 d)) d Stp) as [s2|] eqn:E2; [|discriminate]. rewrite Hm in E. cbn [andb orb] in E. injection E as <-.
    apply R_clear. apply (R_less act); [intros x; now right|]. apply R_clear. apply (IH _ _ _ _ _ (R_invoke _ _ d Stp HR1 (fun _ => St)) E2).
  - rewrite Hm in E. cbn [andb orb] in E. destruct (schedule n (invoke s1 d Body (t_flag s1 d)) d Body) as [s2|] eqn:E2; [|discriminate]. injection E as <-.
    apply R_clear. apply (IH _ _ _ _ _ (R_invoke _ _ d Body HR1 ltac:(discriminate)) E2).
Qed.

Lemma R_msg s r b f : R [] s -> mem r (t_queue s) = false -> (f = t_flag s \/ f = upd (t_flag s) r false) /\ b = false \/ f = upd (t_flag s) r true /\ b = true ->
  R [] (trigger (note (mkTst (t_tag s) f (t_queue s) (t_set s) (t_log s)) (EMsg r b)) r).
Proof.
  intros [A B C] Q Hf. set (s1 := note _ _). destruct (trigger_flag s1 r) as (T1 & T2 & T3 & T4).
  assert (Fx : forall x, f x = true -> t_flag s x = true \/ x = r /\ b = true).
  { intros x Hx. destruct Hf as [[[->| ->] _]|[-> ->]]; [now left| |]; destruct (Nat.eq_dec x r) as [->|n]; [rewrite upd_same in Hx; discriminate|rewrite upd_other in Hx by exact n; now left|now right|rewrite upd_other in Hx by exact n; now left]. }
  constructor.
  - intros x. rewrite T1, T2. unfold s1. cbn [note t_flag t_log]. intros Hx. destruct (Fx x Hx) as [K|[-> ->]]; [apply (reached_mono (t_log s)); [now right|auto]|apply reached_msg; now left].
  - intros x. rewrite T1. intros Hx. left. apply trigger_queue. destruct (Fx x Hx) as [K|[-> _]]; [|now right]. destruct (B x K) as [K1|[]]. now left.
  - intros x c f'. rewrite T2. intros [K|K]; [discriminate|]. destruct (C x c f' K) as [D1 D2]. split; [|exact D2]. intros H. apply (reached_mono (t_log s)); [now right|auto].
Qed.

Lemma R_step (Hm : no_missed_deadlines g) n s o s' : R [] s -> tstep g n s o = Some s' -> R [] s'.
Proof.
  intros HR E. destruct o as [r b|r b|r|]; cbn [tstep] in E.
  - destruct (mem r (t_queue s)) eqn:M; injection E as <-; [exact HR|]. destruct b; [apply (R_msg s r true (upd (t_flag s) r true) HR M); now right|].
    pose proof (R_msg s r false (t_flag s) HR M) as K. destruct s. apply K. left. split; [now left|reflexivity].
  - destruct (mem r (t_queue s)) eqn:M; injection E as <-; [exact HR|]. apply (R_msg s r b (upd (t_flag s) r b) HR M). destruct b; [now right|left]. split; [now right|reflexivity].
  - destruct (mem r (t_queue s)) eqn:M; [|discriminate]. destruct (work n s r) as [s1|] eqn:W; [|discriminate]. injection E as <-.
    assert (K : exists s2, s1 = set_flag s2 r false /\ R [r] s2).
    { unfold Tardy.work in W. rewrite Hm in W. pose proof (R_less [] [r] s ltac:(intros x []) HR) as HR1. destruct (t_flag s r && negb (receiver g r) && handler g r) eqn:St.
      - destruct (schedule n _ r Stp) as [s2|] eqn:E2; [|discriminate]. injection W as <-. exists s2. split; [reflexivity|]. refine (R_schedule Hm n [r] _ r Stp s2 _ E2).
        apply (R_less []); [intros x []|]. apply R_clear. apply R_invoke; [exact HR1|]. intros _. apply andb_true_iff in St. destruct St as [St ->]. apply andb_true_iff in St. now destruct St as [-> _].
      - destruct (schedule n _ r Body) as [s2|] eqn:E2; [|discriminate]. injection W as <-. exists s2. split; [reflexivity|]. refine (R_schedule Hm n [r] _ r Body s2 _ E2). apply R_invoke; [exact HR1|discriminate]. }
    destruct K as (s2 & -> & [A B C]). constructor; cbn [set_flag t_flag t_queue t_log]; [| |exact C].
    + intros x Hx. destruct (Nat.eq_dec x r) as [->|ne]; [rewrite upd_same in Hx; discriminate|rewrite upd_other in Hx by exact ne; auto].
    + intros x Hx. destruct (Nat.eq_dec x r) as [->|ne]; [rewrite upd_same in Hx; discriminate|rewrite upd_other in Hx by exact ne]. left. destruct (B x Hx) as [K|[K|[]]]; [|congruence]. apply filter_In. split; [exact K|]. now destruct (Nat.eqb_spec x r).
  - destruct (t_queue s) eqn:Q; [|discriminate]. injection E as <-. destruct HR as [A B C].
    assert (Z : forall r, t_flag s r = false) by (intros r; apply not_true_is_false; intros K; destruct (B r K) as [K1|K1]; [rewrite Q in K1|]; destruct K1).
    constructor; cbn; [| |intros ? ? ? []]; intros r Hr; rewrite Z in Hr; discriminate.
Qed.
Lemma R_run_ops (Hm : no_missed_deadlines g) n l : forall s s', R [] s -> trun g n s l = Some s' -> R [] s'.
Proof.
  induction l as [|o l IH]; intros s s' HR E; cbn [trun] in E; [now injection E as <-|]. destruct (tstep g n s o) as [s1|] eqn:E1; [|discriminate].
  apply (IH s1); [now apply (R_step Hm n s o)|exact E].
Qed.
Lemma R_init : R [] tinit.
Proof. constructor; cbn; [discriminate|discriminate|intros ? ? ? []]. Qed.

(** ** Handlers are invoked exactly for tardy messages *)
Definition ext (s s' : tst) : Prop := exists l, t_log s' = l ++ t_log s.
Lemma ext_refl s : ext s s.
Proof. now exists []. Qed.
Lemma ext_trans a b c : ext a b -> ext b c -> ext a c.
Proof. intros [l E] [l' E']. exists (l' ++ l). now rewrite E', E, app_assoc. Qed.
Lemma ext_incl s s' e : ext s s' -> In e (t_log s) -> In e (t_log s').
Proof. intros [l ->] H. apply in_or_app. now right. Qed.
Definition fit (s : tst) : Prop := executed_once (t_log s) /\ one_source (t_log s).
Lemma fit_ext s s' : ext s s' -> fit s' -> fit s.
Proof.
  intros X [N (O1 & O2 & O3)]. split.
  - destruct X as [l El]. unfold executed_once in *. rewrite El, runs_app in N. clear - N. induction (runs l) as [|a r IH]; [exact N|]. inversion N; auto.
  - split; [|split]; intros.
    + apply (O1 r); apply (ext_incl s s'); assumption.
    + apply (O2 r b u c); apply (ext_incl s s'); assumption.
    + apply (O3 u c u' c' d); apply (ext_incl s s'); assumption.
Qed.
Definition sourced (l : list entry) (r : nat) : Prop := (exists b, In (EMsg r b) l) \/ exists u c, In (ETrig u c r) l.
Definition exact (s : tst) (r : nat) : Prop := t_flag s r = true <-> tardy (t_log s) r.

Record C (pend : option nat) (act : list nat) (s : tst) : Prop := mkC {
  C_trig : forall u c d, In (ETrig u c d) (t_log s) -> In u (runs (t_log s));
  C_run : forall r c f, In (ERun r c f) (t_log s) -> (f = true <-> tardy (t_log s) r) /\ (c = Stp <-> f = true /\ handler g r = true /\ receiver g r = false) /\ c <> Late;
  C_queue : forall r, In r (t_queue s) -> ~ In r act -> exact s r;
  C_source : forall r, In r (t_queue s) \/ In r (runs (t_log s)) -> sourced (t_log s) r;
  C_flag : forall r, t_flag s r = true -> In r (t_queue s) \/ In r act \/ pend = Some r;
  C_act : forall r, In r act -> In r (runs (t_log s)) }.

Lemma sourced_mono l l' r : (forall e, In e l -> In e l') -> sourced l r -> sourced l' r.
Proof. intros H [(b & K)|(u & c & K)]; [left|right]; eauto. Qed.
Lemma tardy_run l x r c f : tardy (ERun r c f :: l) x <-> tardy l x.
Proof.
  split; [|apply tardy_mono; intros; now right]. intros T. induction T as [y K|u c' d K Hc _ IH].
  - destruct K as [K|K]; [discriminate|now apply tardy_msg].
  - destruct K as [K|K]; [discriminate|now apply (tardy_by _ u c')].
Qed.

(** A reaction is invoked. *)
Lemma C_invoke pend act s r c f : pend = None \/ pend = Some r -> C pend act s -> f = t_flag s r -> exact s r -> sourced (t_log s) r -> c <> Late -> (c = Stp <-> f = true /\ handler g r = true /\ receiver g r = false) ->
  C None (r :: act) (invoke s r c f).
Proof.
  intros Hp [A B D E F G] Hf Hx Hs Hl Hc. unfold Tardy.invoke. constructor; cbn [t_log t_flag t_queue].
  - intros u c' d [K|K]; [discriminate|]. cbn [runs flat_map app]. right. now apply (A u c' d).
  - intros x c' f' [K|K].
    + injection K as <- <- <-. rewrite tardy_run. split; [rewrite Hf; exact Hx|]. split; [exact Hc|exact Hl].
    + rewrite tardy_run. now apply (B x c').
  - intros x Hq Ha. unfold exact. cbn [t_log t_flag]. rewrite tardy_run. apply D; [exact Hq|]. intros K. apply Ha. now right.
  - intros x Hq. apply (sourced_mono (t_log s)); [now right|]. destruct Hq as [Hq|Hq]; [apply E; now left|]. cbn [runs flat_map app] in Hq. destruct Hq as [<-|Hq]; [exact Hs|]. apply E. now right.
  - intros x Hx'. destruct (F x Hx') as [K|[K|K]]; [now left|right; left; now right|]. right. left. left. destruct Hp; congruence.
  - intros x [<-|Hx']; [now left|]. right. now apply G.
Qed.
(** It is done. *)
Lemma C_clear act s d : C None (d :: act) s -> ~ In d (t_queue s) -> C None act (set_flag s d false).
Proof.
  intros [A B D E F G] Nq. constructor; cbn [set_flag t_log t_flag t_queue]; auto.
  - intros x Hq Ha. assert (n : x <> d) by (intros ->; contradiction). unfold exact. cbn [set_flag t_log t_flag]. rewrite upd_other by exact n. apply D; [exact Hq|]. intros [K|K]; congruence || contradiction.
  - intros x Hx. destruct (Nat.eq_dec x d) as [->|n]; [rewrite upd_same in Hx; discriminate|rewrite upd_other in Hx by exact n]. destruct (F x Hx) as [K|[[K|K]|K]]; auto; congruence.
  - intros x Hx. apply G. now right.
Qed.
Lemma C_unflag act s d : C None act s -> In d act -> C None act (set_flag s d false).
Proof.
  intros [A B D E F G] Hd. constructor; cbn [set_flag t_log t_flag t_queue]; auto.
  - intros x Hq Ha. assert (n : x <> d) by (intros ->; contradiction). unfold exact. cbn [set_flag t_log t_flag]. rewrite upd_other by exact n. now apply D.
  - intros x Hx. destruct (Nat.eq_dec x d) as [->|n]; [rewrite upd_same in Hx; discriminate|rewrite upd_other in Hx by exact n]. auto.
Qed.

(** What a run adds to the queue has not been executed before. *)
Definition fresh_queue (s s' : tst) : Prop := forall x, In x (runs (t_log s)) -> In x (t_queue s') -> In x (t_queue s).

Lemma runs_trigs r c ds l : runs (rev (map (ETrig r c) ds) ++ l) = runs l.
Proof. rewrite runs_app. replace (runs (rev (map (ETrig r c) ds))) with (@nil nat); [reflexivity|]. symmetry. rewrite <- map_rev. induction (rev ds) as [|d t IH]; [reflexivity|exact IH]. Qed.
Lemma in_trigs r c ds l e : In e (rev (map (ETrig r c) ds) ++ l) <-> (exists d, e = ETrig r c d /\ In d ds) \/ In e l.
Proof. rewrite in_app_iff, <- in_rev, in_map_iff. split; (intros [(d & K1 & K2)|K]; [left; exists d; split; [congruence|exact K2]|now right]). Qed.

Lemma ext_schedule n : forall s r c s', schedule n s r c = Some s' -> ext s s'.
Proof.
  induction n as [|n IH]; intros s r c s' E; [discriminate|]. cbn [Tardy.schedule] in E.
  destruct (fold_left (enable r c (t_flag s r)) (downstream g s r) (s, 0%nat, None)) as [[s1 num] now] eqn:Ef.
  destruct (enable_fold r c (t_flag s r) (downstream g s r) s 0%nat None s1 num now (fun _ => eq_refl) Ef) as (_ & _ & A3 & _).
  assert (X1 : ext s s1) by (eexists; exact A3). destruct now as [d|]; [|now injection E as <-]. cbv zeta in E.
  assert (In' : forall x c f y, schedule n (invoke x d c f) d c = Some y -> ext x y).
  { intros x c' f y K. apply IH in K. destruct K as [l K]. exists (l ++ [ERun d c' f]). rewrite K, <- app_assoc. reflexivity. }
  destruct (if t_flag s1 d && handler g d then match schedule n (invoke s1 d Stp (t_flag s1 d)) d Stp with Some s => Some (set_flag s d false) | None => None end else Some s1) as [s2|] eqn:E2; [|discriminate].
  assert (X2 : ext s1 s2).
  { destruct (t_flag s1 d && handler g d); [|injection E2 as <-; apply ext_refl]. destruct (schedule n _ d Stp) as [y|] eqn:Y; [|discriminate]. injection E2 as <-. change (ext s1 y). exact (In' _ _ _ _ Y). }
  destruct (if missed g (t_tag s2) d && late_handler g d then schedule n (invoke s2 d Late (t_flag s1 d)) d Late else Some s2) as [s3|] eqn:E3; [|discriminate].
  assert (X3 : ext s2 s3) by (destruct (missed g (t_tag s2) d && late_handler g d); [exact (In' _ _ _ _ E3)|injection E3 as <-; apply ext_refl]).
  destruct (if t_flag s1 d && handler g d || missed g (t_tag s2) d then Some s3 else schedule n (invoke s3 d Body (t_flag s1 d)) d Body) as [s4|] eqn:E4; [|discriminate].
  assert (X4 : ext s3 s4) by (destruct (t_flag s1 d && handler g d || missed g (t_tag s2) d); [injection E4 as <-; apply ext_refl|exact (In' _ _ _ _ E4)]).
  injection E as <-. change (ext s s4). apply (ext_trans s s1); [exact X1|]. apply (ext_trans s1 s2); [exact X2|]. now apply (ext_trans s2 s3).
Qed.

Lemma C_schedule (Hm : no_missed_deadlines g) (Hq : handlers_queued g) n : forall act s r c s', C None act s -> In r (runs (t_log s)) -> (forall c' d, ~ In (ETrig r c' d) (t_log s)) ->
  (t_flag s r = true <-> c <> Stp /\ tardy (t_log s) r) -> schedule n s r c = Some s' -> fit s' -> C None act s' /\ ext s s' /\ fresh_queue s s'.
Proof.
  induction n as [|n IH]; intros act s r c s' HC Hr Hfr Hb E Fi; [discriminate|]. cbn [Tardy.schedule] in E.
  destruct (fold_left (enable r c (t_flag s r)) (downstream g s r) (s, 0%nat, None)) as [[s1 num] now] eqn:Ef.
  destruct (enable_fold r c (t_flag s r) (downstream g s r) s 0%nat None s1 num now (fun _ => eq_refl) Ef) as (A1 & A2 & A3 & A4 & A5 & A6 & A7 & A8).
  set (ds := downstream g s r) in *. set (b := t_flag s r) in *. clearbody ds b.
  assert (X1 : ext s s1) by (exists (rev (map (ETrig r c) ds)); exact A3).
  assert (R1 : runs (t_log s1) = runs (t_log s)) by (rewrite A3; apply runs_trigs).
  (* the rest extends the log *)
  assert (Main : fit s1 -> C now act s1 /\ fresh_queue s s1 /\ forall d, now = Some d -> exact s1 d /\ sourced (t_log s1) d /\ ~ In d (t_queue s1) /\ ~ In d (runs (t_log s1))).
  { intros [_ (O1 & O2 & O3)]. destruct HC as [B1 B2 B3 B4 B5 B6].
    assert (New : forall d, In d ds -> In (ETrig r c d) (t_log s1)) by (intros d Hd; rewrite A3; apply in_trigs; left; eauto).
    assert (NoS : forall d, In d ds -> ~ sourced (t_log s) d).
    { intros d Hd [(b' & K)|(u & c' & K)].
      - apply (O2 d b' r c); [apply (ext_incl s s1); assumption|auto].
      - assert (Eu : u = r) by (apply (O3 u c' r c d); [apply (ext_incl s s1); assumption|auto]). subst u. now apply (Hfr c' d). }
    assert (NoR : forall d, In d ds -> ~ In d (runs (t_log s))) by (intros d Hd K; apply (NoS d Hd), B4; now right).
    assert (NoQ : forall d, In d ds -> ~ In d (t_queue s)) by (intros d Hd K; apply (NoS d Hd), B4; now left).
    assert (NoT : forall d, In d ds -> ~ tardy (t_log s) d).
    { intros d Hd T. apply (NoS d Hd). destruct T as [x K|u c' x K _ _]; [left|right]; eauto. }
    assert (T : forall x, tardy (t_log s1) x <-> tardy (t_log s) x \/ In x ds /\ b = true).
    { intros x. split.
      - intros Tx. induction Tx as [y K|u c' d K Hc Tu IHu]; rewrite A3 in K; apply in_trigs in K.
        + destruct K as [(d & K & _)|K]; [discriminate|]. left. now apply tardy_msg.
        + destruct K as [(d' & K & Hd)|K].
          * injection K as -> -> <-. right. split; [exact Hd|]. apply Hb. split; [exact Hc|]. destruct IHu as [IHu|[IHu _]]; [exact IHu|]. exfalso. now apply (NoR r).
          * destruct IHu as [IHu|[IHu _]]; [left; now apply (tardy_by _ u c')|]. exfalso. apply (NoR u IHu). now apply (B1 u c' d).
      - intros [K|[Hd K]]; [apply (tardy_mono (t_log s)); [intros e; apply (ext_incl s s1), X1|exact K]|]. apply Hb in K. destruct K as [Hc K]. apply (tardy_by _ r c); [auto|exact Hc|]. apply (tardy_mono (t_log s)); [intros e; apply (ext_incl s s1), X1|exact K]. }
    assert (Ex : forall d, In d ds -> exact s1 d).
    { intros d Hd. unfold exact. rewrite A4, T. replace (mem d ds) with true by (symmetry; now apply mem_In). specialize (NoT d Hd). tauto. }
    split; [|split].
    - constructor.
      + intros u c' d K. rewrite R1. rewrite A3 in K. apply in_trigs in K. destruct K as [(d' & K & _)|K]; [injection K as -> -> _; exact Hr|now apply (B1 u c' d)].
      + intros x c' f K. rewrite A3 in K. apply in_trigs in K. destruct K as [(d' & K & _)|K]; [discriminate|]. destruct (B2 x c' f K) as (D1 & D2). split; [|exact D2]. rewrite T, D1.
        assert (Nx : ~ In x ds) by (intros K2; apply (NoR x K2), runs_in; eauto). tauto.
      + intros x Hx Ha. destruct (mem x ds) eqn:M; [apply mem_In in M; auto|]. assert (Nx : ~ In x ds) by (rewrite <- mem_In; congruence).
        destruct (A6 x Hx) as [K|[K|K]]; [|contradiction|discriminate]. unfold exact. rewrite A4, M, T. specialize (B3 x K Ha). unfold exact in B3. tauto.
      + intros x Hx. rewrite R1 in Hx. assert (K : (In x (t_queue s) \/ In x (runs (t_log s))) \/ In x ds) by (destruct Hx as [Hx|Hx]; [destruct (A6 x Hx) as [K|[K|K]]; [auto|auto|discriminate]|auto]).
        destruct K as [K|K]; [apply (sourced_mono (t_log s)); [intros e; apply (ext_incl s s1), X1|auto]|right; eauto].
      + intros x Hx. rewrite A4 in Hx. destruct (mem x ds) eqn:M.
        * apply mem_In in M. destruct (A7 x (or_introl M)) as [K|K]; [now left|].
          auto.
        * destruct (B5 x Hx) as [K|[K|K]]; auto. discriminate.
      + intros x Hx. rewrite R1. auto.
    - intros x Hx Hx'. destruct (A6 x Hx') as [K|[K|K]]; [exact K|exfalso; now apply (NoR x)|discriminate].
    - intros d ->. destruct (A8 d eq_refl) as (Q & [K|[K _]]); [discriminate|]. split; [auto|]. split; [right; eauto|]. rewrite Q, R1. auto. }
  destruct now as [d|].
  2: { injection E as <-. destruct (Main Fi) as (M1 & M2 & _). auto. }
  cbv zeta in E. destruct (A8 d eq_refl) as (Q1 & [K|[Hd Le]]); [discriminate|].
  assert (Hh : handler g d = false) by (apply not_true_is_false; intros K; rewrite (Hq d K) in Le; discriminate).
  rewrite Hh, andb_false_r, Hm in E. cbn [andb orb] in E. destruct (schedule n (invoke s1 d Body (t_flag s1 d)) d Body) as [s2|] eqn:E2; [|discriminate]. injection E as <-.
  set (si := invoke s1 d Body (t_flag s1 d)) in *.
  (* the log only grows *)
  assert (X2 : ext si s2) by (eapply ext_schedule; exact E2).
  assert (Xi : ext s1 si) by (exists [ERun d Body (t_flag s1 d)]; reflexivity).
  assert (Fi2 : fit s2) by exact Fi. assert (F1 : fit s1) by (apply (fit_ext s1 s2); [now apply (ext_trans s1 si)|exact Fi2]).
  destruct (Main F1) as (M1 & M2 & M3). destruct (M3 d eq_refl) as (Ex & So & Nq & Nr).
  assert (Ci : C None (d :: act) si).
  { apply (C_invoke (Some d) act s1 d Body); auto; [discriminate|]. split; [discriminate|]. intros (_ & K & _). congruence. }
  destruct (IH (d :: act) si d Body s2) as (D1 & D2 & D3); auto.
  - now left.
  - intros c' x [K|K]; [discriminate|]. apply Nr. now apply (C_trig _ _ _ M1 d c' x).
  - change (t_flag si d) with (t_flag s1 d). unfold si, Tardy.invoke. cbn [t_log]. rewrite tardy_run. unfold exact in Ex. rewrite <- Ex. split; [intros K; split; [discriminate|exact K]|tauto].
  - assert (Nd : ~ In d (t_queue s2)) by (intros K; apply Nq, (D3 d); [now left|exact K]).
    split; [now apply C_clear|]. split; [apply (ext_trans s s1); [exact X1|]; apply (ext_trans s1 si); assumption|].
    intros x Hx Hx'. apply M2; [exact Hx|]. cbn [set_flag t_queue] in Hx'. apply (D3 x); [|exact Hx']. right. change (In x (runs (t_log s1))). now rewrite R1.
Qed.

Lemma C_msg s r b f s' : C None [] s -> mem r (t_queue s) = false -> (f = t_flag s /\ b = false) \/ f = upd (t_flag s) r b ->
  s' = trigger (note (mkTst (t_tag s) f (t_queue s) (t_set s) (t_log s)) (EMsg r b)) r -> fit s' -> C None [] s'.
Proof.
  intros [A B D E F G] Q Hf -> [_ (O1 & O2 & O3)]. set (s1 := note _ _) in *. destruct (trigger_flag s1 r) as (T1 & T2 & T3 & T4). rewrite T2 in O1, O2, O3. change (t_log s1) with (EMsg r b :: t_log s) in *.
  assert (Nq : ~ In r (t_queue s)) by (rewrite <- mem_In; congruence).
  assert (Fr : t_flag s r = false) by (apply not_true_is_false; intros K; destruct (F r K) as [K1|[[]|K1]]; [contradiction|discriminate]).
  assert (Fx : forall x, f x = if (x =? r)%nat then b else t_flag s x).
  { intros x. destruct Hf as [[-> ->]| ->]; destruct (Nat.eqb_spec x r) as [->|ne]; auto; [apply upd_same|now apply upd_other]. }
  assert (Nt : forall u c, ~ In (ETrig u c r) (t_log s)) by (intros u c K; apply (O2 r b u c); [now left|now right]).
  assert (Ag : forall b', In (EMsg r b') (t_log s) -> b' = b) by (intros b' K; apply (O1 r); [now right|now left]).
  assert (Tr : tardy (t_log s) r -> b = true) by (intros T; destruct T as [x K|u c x K _ _]; [symmetry; now apply Ag|exfalso; now apply (Nt u c)]).
  (* a reaction that has been run has the same messages as before *)
  assert (Tt : forall x, tardy (EMsg r b :: t_log s) x <-> tardy (t_log s) x \/ x = r /\ b = true).
  { intros x. split.
    - intros T. induction T as [y K|u c d K Hc _ IH].
      + destruct K as [K|K]; [injection K as -> ->; now right|left; now apply tardy_msg].
      + destruct K as [K|K]; [discriminate|]. destruct IH as [IH|[-> ->]]; [left; now apply (tardy_by _ u c)|].
        left. apply (tardy_by _ r c); [exact K|exact Hc|]. destruct (E r (or_intror (A r c d K))) as [(b' & K1)|(u & c1 & K1)]; [|exfalso; now apply (Nt u c1)]. apply tardy_msg. now rewrite (Ag b' K1) in K1.
    - intros [T|[-> ->]]; [apply (tardy_mono (t_log s)); [now right|exact T]|apply tardy_msg; now left]. }
  constructor; rewrite ?T2; change (t_log s1) with (EMsg r b :: t_log s) in *.
  - intros u c d [K|K]; [discriminate|]. exact (A u c d K).
  - intros x c f' [K|K]; [discriminate|]. destruct (B x c f' K) as (D1 & D2). split; [|exact D2]. rewrite Tt, D1. split; [now left|]. intros [K1|[-> ->]]; [exact K1|].
    destruct (E r (or_intror (proj2 (runs_in _ _) (ex_intro _ c (ex_intro _ f' K))))) as [(b' & K1)|(u & c1 & K1)]; [|exfalso; now apply (Nt u c1)]. apply tardy_msg. now rewrite (Ag b' K1) in K1.
  - intros x Hx _. apply trigger_queue in Hx. unfold exact. rewrite T1, T2. change (t_flag s1) with f. change (t_log s1) with (EMsg r b :: t_log s). rewrite Fx, Tt. destruct (Nat.eqb_spec x r) as [->|ne].
    + split; [auto|]. intros [K|[_ K]]; auto.
    + destruct Hx as [Hx|Hx]; [|contradiction]. specialize (D x Hx (fun K => K)). unfold exact in D. tauto.
  - intros x Hx. destruct Hx as [Hx|Hx]; [apply trigger_queue in Hx; destruct Hx as [Hx| ->]|].
    + apply (sourced_mono (t_log s)); [now right|apply E; now left].
    + left. exists b. now left.
    + apply (sourced_mono (t_log s)); [now right|apply E; now right].
  - intros x. rewrite T1. change (t_flag s1 x) with (f x). rewrite Fx. intros K. left. apply trigger_queue. destruct (Nat.eqb_spec x r) as [ex|ne]; [now right|]. destruct (F x K) as [K1|[[]|K1]]; [now left|discriminate].
  - intros x [].
Qed.

Lemma C_step (Hm : no_missed_deadlines g) (Hq : handlers_queued g) n s o s' : C None [] s -> tstep g n s o = Some s' -> fit s' -> C None [] s'.
Proof.
  intros HC E Fi. destruct o as [r b|r b|r|]; cbn [tstep] in E.
  - destruct (mem r (t_queue s)) eqn:M; [injection E as <-; exact HC|]. assert (Es : s' = trigger (note (if b then set_flag s r true else s) (EMsg r b)) r) by congruence. clear E.
    destruct b; [apply (C_msg s r true (upd (t_flag s) r true) s' HC M); auto|]. apply (C_msg s r false (t_flag s) s' HC M); auto.
  - destruct (mem r (t_queue s)) eqn:M; [injection E as <-; exact HC|]. assert (Es : s' = trigger (note (set_flag s r b) (EMsg r b)) r) by congruence. clear E.
    apply (C_msg s r b (upd (t_flag s) r b) s' HC M); auto.
  - destruct (mem r (t_queue s)) eqn:M; [|discriminate]. destruct (work n s r) as [s1|] eqn:W; [|discriminate]. injection E as <-. apply mem_In in M.
    assert (Fi1 : fit s1) by exact Fi. clear Fi.
    assert (Hx : exact s r) by (apply (C_queue _ _ _ HC); [exact M|intros []]). assert (Hs : sourced (t_log s) r) by (apply (C_source _ _ _ HC); now left).
    assert (K : exists s2, s1 = set_flag s2 r false /\ C None [r] s2 /\ True).
    { unfold Tardy.work in W. rewrite Hm in W. destruct (t_flag s r && negb (receiver g r) && handler g r) eqn:St.
      - destruct (schedule n _ r Stp) as [s2|] eqn:E2; [|discriminate]. injection W as <-. exists s2. split; [reflexivity|]. split; [|exact Logic.I]. apply andb_true_iff in St. destruct St as [St H2]. apply andb_true_iff in St. destruct St as [H1 H3]. apply negb_true_iff in H3.
        set (si := invoke s r Stp (t_flag s r)) in *.
        assert (Ci : C None [r] si) by (apply (C_invoke None [] s r Stp); auto; [discriminate|tauto]).
        assert (X : ext (set_flag si r false) s2) by (eapply ext_schedule; exact E2).
        refine (proj1 (C_schedule Hm Hq n [r] (set_flag si r false) r Stp s2 _ _ _ _ E2 Fi1)).
        + apply C_unflag; [exact Ci|now left].
        + now left.
        + pose proof (fit_ext _ _ X Fi1) as [N _]. intros c' x [K|K]; [discriminate|]. cbn [set_flag si Tardy.invoke t_log] in N. unfold executed_once in N. cbn [runs flat_map app] in N. inversion N as [|? ? N1 N2]. apply N1. now apply (C_trig _ _ _ HC r c' x).
        + cbn [set_flag t_flag]. rewrite upd_same. split; [discriminate|]. intros [K _]. congruence.
      - destruct (schedule n _ r Body) as [s2|] eqn:E2; [|discriminate]. injection W as <-. exists s2. split; [reflexivity|]. split; [|exact Logic.I].
        set (si := invoke s r Body (t_flag s r)) in *.
        assert (Ci : C None [r] si).
        { apply (C_invoke None [] s r Body); auto; [discriminate|]. split; [discriminate|]. intros (K1 & K2 & K3). rewrite K1, K2, K3 in St. discriminate. }
        assert (X : ext si s2) by (eapply ext_schedule; exact E2).
        refine (proj1 (C_schedule Hm Hq n [r] si r Body s2 Ci _ _ _ E2 Fi1)).
        + now left.
        + pose proof (fit_ext _ _ X Fi1) as [N _]. intros c' x [K|K]; [discriminate|]. cbn [si Tardy.invoke t_log] in N. unfold executed_once in N. cbn [runs flat_map app] in N. inversion N as [|? ? N1 N2]. apply N1. now apply (C_trig _ _ _ HC r c' x).
        + change (t_flag si r) with (t_flag s r). unfold si, Tardy.invoke. cbn [t_log]. rewrite tardy_run. unfold exact in Hx. rewrite <- Hx. split; [intros K; split; [discriminate|exact K]|tauto]. }
    destruct K as (s2 & -> & [A B D E F G] & _). constructor; cbn [set_flag t_flag t_queue t_log]; auto.
    + intros x Hx' _. apply filter_In in Hx'. destruct Hx' as [Hx' Nr]. assert (ne : x <> r) by (intros ->; rewrite Nat.eqb_refl in Nr; discriminate). unfold exact. cbn [set_flag t_flag t_log]. rewrite upd_other by exact ne. apply D; [exact Hx'|]. intros [K|[]]. congruence.
    + intros x Hx'. apply E. destruct Hx' as [Hx'|Hx']; [left; now apply filter_In in Hx'|now right].
    + intros x Hx'. destruct (Nat.eq_dec x r) as [->|ne]; [rewrite upd_same in Hx'; discriminate|rewrite upd_other in Hx' by exact ne]. left. destruct (F x Hx') as [K|[[K|[]]|K]]; [|congruence|discriminate]. apply filter_In. split; [exact K|]. now destruct (Nat.eqb_spec x r).
    + intros x [].
  - destruct (t_queue s) eqn:Q; [|discriminate]. injection E as <-. destruct HC as [A B D E F G].
    assert (Z : forall r, t_flag s r = false) by (intros r; apply not_true_is_false; intros K; destruct (F r K) as [K1|[[]|K1]]; [rewrite Q in K1; destruct K1|discriminate]).
    constructor; cbn; try (intros; contradiction); [intros r [[]|[]]|intros r Hr; rewrite Z in Hr; discriminate].
Qed.

(** The hypotheses are about the current tag; what has been at earlier tags is not known, but no flag is left. *)
Lemma C_next s : R [] s -> t_queue s = [] -> C None [] (mkTst (S (t_tag s)) (t_flag s) [] (fun _ => []) []).
Proof.
  intros [A B D] Q. assert (Z : forall r, t_flag s r = false) by (intros r; apply not_true_is_false; intros K; destruct (B r K) as [K1|[]]; rewrite Q in K1; destruct K1).
  constructor; cbn; try (intros; contradiction); [intros r [[]|[]]|intros r Hr; rewrite Z in Hr; discriminate].
Qed.
Lemma step_log n s o s' : tstep g n s o = Some s' -> o = TNext \/ ext s s'.
Proof.
  intros E. destruct o as [r b|r b|r|]; cbn [tstep] in E; [right|right|right|now left].
  - destruct (mem r (t_queue s)); injection E as <-; [apply ext_refl|]. destruct (trigger_flag (note (if b then set_flag s r true else s) (EMsg r b)) r) as (_ & T & _). exists [EMsg r b]. rewrite T. now destruct b.
  - destruct (mem r (t_queue s)); injection E as <-; [apply ext_refl|]. destruct (trigger_flag (note (set_flag s r b) (EMsg r b)) r) as (_ & T & _). exists [EMsg r b]. now rewrite T.
  - destruct (mem r (t_queue s)); [|discriminate]. destruct (work n s r) as [s1|] eqn:W; [|discriminate]. injection E as <-. change (ext s s1). unfold Tardy.work in W.
    assert (K : forall c f s0 x, t_log s0 = ERun r c f :: t_log s -> schedule n s0 r c = Some x -> ext s x).
    { intros c f s0 x L X. apply ext_schedule in X. destruct X as [l X]. exists (l ++ [ERun r c f]). rewrite X, L, <- app_assoc. reflexivity. }
    destruct (missed g (t_tag s) r).
    + destruct (late_handler g r); [|injection W as <-; apply ext_refl]. eapply K; [|exact W]. reflexivity.
    + destruct (_ && _); (destruct (schedule n _ r _) as [s2|] eqn:X; [|discriminate]); injection W as <-; change (ext s s2); (eapply K; [|exact X]; reflexivity).
Qed.
Lemma C_run_ops (Hm : no_missed_deadlines g) (Hq : handlers_queued g) n l : forall s s', R [] s -> (fit s -> C None [] s) -> trun g n s l = Some s' -> (fit s' -> C None [] s').
Proof.
  induction l as [|o l IH]; intros s s' HR HC E; cbn [trun] in E; [now injection E as <-|]. destruct (tstep g n s o) as [s1|] eqn:E1; [|discriminate].
  apply (IH s1); [now apply (R_step Hm n s o)| |exact E]. intros Fi. destruct (step_log n s o s1 E1) as [->|X].
  - cbn [tstep] in E1. destruct (t_queue s) eqn:Q; [|discriminate]. injection E1 as <-. now apply C_next.
  - apply (C_step Hm Hq n s o); [|exact E1|exact Fi]. apply HC. now apply (fit_ext s s1).
Qed.
Lemma C_init : C None [] tinit.
Proof. constructor; cbn; try (intros; contradiction); [intros r [[]|[]]|discriminate]. Qed.

(** ** The recursion ends *)
Lemma schedule_ends (Ha : acyclic g) N (HN : forall r o d, In d (reacts g r o) -> (d < N)%nat) n : forall s r c, (N - r <= n)%nat -> (r < N)%nat -> exists s', schedule n s r c = Some s'.
Proof.
  induction n as [|n IH]; intros s r c Hn Hr; [lia|]. cbn [Tardy.schedule].
  destruct (fold_left (enable r c (t_flag s r)) (downstream g s r) (s, 0%nat, None)) as [[s1 num] now] eqn:Ef.
  destruct (enable_fold r c (t_flag s r) (downstream g s r) s 0%nat None s1 num now (fun _ => eq_refl) Ef) as (_ & _ & _ & _ & _ & _ & _ & A8).
  destruct now as [d|]; [|eauto]. destruct (A8 d eq_refl) as (_ & [K|[Hd _]]); [discriminate|].
  assert (Hd' : (r < d < N)%nat). { unfold downstream in Hd. apply in_flat_map in Hd. destruct Hd as (o & _ & Hd). destruct (mem o (t_set s r)); [|destruct Hd]. split; [now apply (Ha r o)|now apply (HN r o)]. }
  assert (Go : forall s c, exists s', schedule n s d c = Some s') by (intros; apply IH; lia).
  assert (S1 : exists s2, (if t_flag s1 d && handler g d then match schedule n (invoke s1 d Stp (t_flag s1 d)) d Stp with Some s => Some (set_flag s d false) | None => None end else Some s1) = Some s2).
  { destruct (_ && _); [|eauto]. destruct (Go (invoke s1 d Stp (t_flag s1 d)) Stp) as (s2 & ->). eauto. }
  destruct S1 as (s2 & ->). cbv zeta.
  assert (S2 : exists s3, (if missed g (t_tag s2) d && late_handler g d then schedule n (invoke s2 d Late (t_flag s1 d)) d Late else Some s2) = Some s3).
  { destruct (_ && _); eauto. }
  destruct S2 as (s3 & ->).
  assert (S3 : exists s4, (if t_flag s1 d && handler g d || missed g (t_tag s2) d then Some s3 else schedule n (invoke s3 d Body (t_flag s1 d)) d Body) = Some s4).
  { destruct (_ || _); eauto. }
  destruct S3 as (s4 & ->). eauto.
Qed.

(** ** Outputs trigger reactions, and what is triggered is executed *)
Record W (cand : option nat) (act : list (nat * kind)) (s : tst) : Prop := mkW {
  W_set : forall u o, In o (t_set s u) <-> exists c f, In (ERun u c f) (t_log s) /\ In o (sets g (t_tag s) u c);
  W_trig : forall u c d, In (ETrig u c d) (t_log s) -> (exists f, In (ERun u c f) (t_log s)) /\ exists o, (o < outputs g u)%nat /\ In o (t_set s u) /\ In d (reacts g u o);
  W_all : forall u c f o d, In (ERun u c f) (t_log s) -> In o (sets g (t_tag s) u c) -> (o < outputs g u)%nat -> In d (reacts g u o) -> In (u, c) act \/ In (ETrig u c d) (t_log s);
  W_exec : forall d, sourced (t_log s) d -> In d (t_queue s) \/ In d (runs (t_log s)) \/ cand = Some d \/ missed g (t_tag s) d = true /\ late_handler g d = false }.

Lemma W_same cand act s s' : t_tag s' = t_tag s -> t_set s' = t_set s -> t_log s' = t_log s -> t_queue s' = t_queue s -> W cand act s -> W cand act s'.
Proof. intros E1 E2 E3 E4 [A B D E]. constructor; rewrite ?E1, ?E2, ?E3, ?E4; assumption. Qed.
Lemma W_invoke cand s r c f : cand = None \/ cand = Some r -> W cand [] s -> W None [(r, c)] (invoke s r c f).
Proof.
  intros Hc [A B D E]. constructor; cbn [Tardy.invoke t_log t_queue t_set t_tag].
  - intros u o. destruct (Nat.eq_dec u r) as [->|n].
    + rewrite upd_same, in_app_iff, A. split.
      * intros [K|(c' & f' & K1 & K2)]; [exists c, f; split; [now left|exact K]|exists c', f'; split; [now right|exact K2]].
      * intros (c' & f' & [K|K] & K2); [injection K as <- <-; now left|right; eauto].
    + rewrite upd_other by exact n. rewrite A. split; intros (c' & f' & K1 & K2); exists c', f'; (split; [|exact K2]); [now right|]. destruct K1 as [K1|K1]; [congruence|exact K1].
  - intros u c' d [K|K]; [discriminate|]. destruct (B u c' d K) as ((f' & K1) & o & K2 & K3 & K4). split; [exists f'; now right|]. exists o. split; [exact K2|]. split; [|exact K4].
    destruct (Nat.eq_dec u r) as [->|n]; [rewrite upd_same; apply in_app_iff; now right|now rewrite upd_other by exact n].
  - intros u c' f' o d [K|K] H1 H2 H3; [injection K as <- <- <-; left; now left|]. destruct (D u c' f' o d K H1 H2 H3) as [[]|K1]. right. now right.
  - intros d Hd. assert (Hd' : sourced (t_log s) d) by (destruct Hd as [(b & [K|K])|(u & c' & [K|K])]; [discriminate|left; eauto|discriminate|right; eauto]).
    destruct (E d Hd') as [K|[K|[K|K]]]; [now left|right; left; now right| |right; right; now right]. right. left. left. destruct Hc; congruence.
Qed.
Lemma W_weaken s d : W None [] s -> W (Some d) [] s.
Proof. intros [A B D E]. constructor; auto. intros x Hx. destruct (E x Hx) as [K|[K|[K|K]]]; auto. discriminate. Qed.
Lemma schedule_tag n : forall s r c s', schedule n s r c = Some s' -> t_tag s' = t_tag s.
Proof.
  induction n as [|n IH]; intros s r c s' E; [discriminate|]. cbn [Tardy.schedule] in E.
  destruct (fold_left (enable r c (t_flag s r)) (downstream g s r) (s, 0%nat, None)) as [[s1 num] now] eqn:Ef.
  destruct (enable_fold r c (t_flag s r) (downstream g s r) s 0%nat None s1 num now (fun _ => eq_refl) Ef) as (A1 & _).
  destruct now as [d|]; [|congruence]. cbv zeta in E.
  destruct (if t_flag s1 d && handler g d then match schedule n (invoke s1 d Stp (t_flag s1 d)) d Stp with Some s => Some (set_flag s d false) | None => None end else Some s1) as [s2|] eqn:E2; [|discriminate].
  assert (X2 : t_tag s2 = t_tag s1).
  { destruct (t_flag s1 d && handler g d); [|congruence]. destruct (schedule n _ d Stp) as [y|] eqn:Y; [|discriminate]. injection E2 as <-. apply IH in Y. exact Y. }
  destruct (if missed g (t_tag s2) d && late_handler g d then schedule n (invoke s2 d Late (t_flag s1 d)) d Late else Some s2) as [s3|] eqn:E3; [|discriminate].
  assert (X3 : t_tag s3 = t_tag s2) by (destruct (missed g (t_tag s2) d && late_handler g d); [apply IH in E3; exact E3|congruence]).
  destruct (if t_flag s1 d && handler g d || missed g (t_tag s2) d then Some s3 else schedule n (invoke s3 d Body (t_flag s1 d)) d Body) as [s4|] eqn:E4; [|discriminate].
  assert (X4 : t_tag s4 = t_tag s3) by (destruct (t_flag s1 d && handler g d || missed g (t_tag s2) d); [congruence|apply IH in E4; exact E4]).
  injection E as <-. cbn [set_flag t_tag]. congruence.
Qed.
Lemma W_schedule n : forall s r c s', W None [(r, c)] s -> (exists f, In (ERun r c f) (t_log s)) -> schedule n s r c = Some s' -> W None [] s'.
Proof.
  induction n as [|n IH]; intros s r c s' HW Hr E; [discriminate|]. cbn [Tardy.schedule] in E.
  destruct (fold_left (enable r c (t_flag s r)) (downstream g s r) (s, 0%nat, None)) as [[s1 num] now] eqn:Ef.
  destruct (enable_fold r c (t_flag s r) (downstream g s r) s 0%nat None s1 num now (fun _ => eq_refl) Ef) as (A1 & A2 & A3 & A4 & A5 & A6 & A7 & A8).
  assert (Dn : forall d, In d (downstream g s r) <-> exists o, (o < outputs g r)%nat /\ In o (t_set s r) /\ In d (reacts g r o)).
  { intros d. unfold downstream. rewrite in_flat_map. split.
    - intros (o & K1 & K2). apply in_seq in K1. destruct (mem o (t_set s r)) eqn:M; [|destruct K2]. apply mem_In in M. exists o. repeat split; auto; lia.
    - intros (o & K1 & K2 & K3). exists o. split; [apply in_seq; lia|]. apply mem_In in K2. now rewrite K2. }
  assert (W1 : W now [] s1).
  { destruct HW as [B1 B2 B3 B4]. destruct Hr as [f0 Hr]. constructor.
    - intros u o. rewrite A2, A1, B1. split; intros (c' & f & K1 & K2); exists c', f; (split; [|exact K2]); rewrite A3 in *; [apply in_trigs; now right|]. apply in_trigs in K1. destruct K1 as [(d & K1 & _)|K1]; [discriminate|exact K1].
    - intros u c' d K. rewrite A3 in K. apply in_trigs in K. rewrite A2. destruct K as [(x & K & Hx)|K].
      + injection K as -> -> ->. split; [exists f0; rewrite A3; apply in_trigs; now right|]. now apply Dn.
      + destruct (B2 u c' d K) as ((f & K1) & K2). split; [exists f; rewrite A3; apply in_trigs; now right|exact K2].
    - intros u c' f o d K. rewrite A3 in K. apply in_trigs in K. destruct K as [(x & K & _)|K]; [discriminate|]. rewrite A1. intros H1 H2 H3. right. rewrite A3. apply in_trigs.
      destruct (B3 u c' f o d K H1 H2 H3) as [[K1|[]]|K1]; [|now right]. injection K1 as <- <-. left. exists d. split; [reflexivity|]. apply Dn. exists o. split; [exact H2|]. split; [|exact H3]. apply B1. eauto.
    - intros d Hd. rewrite A1. assert (R1 : runs (t_log s1) = runs (t_log s)) by (rewrite A3; apply runs_trigs). rewrite R1.
      assert (K : sourced (t_log s) d \/ In d (downstream g s r)).
      { destruct Hd as [(b & K)|(u & c' & K)]; rewrite A3 in K; apply in_trigs in K; destruct K as [(x & K & Hx)|K]; [discriminate|left; left; eauto|injection K as -> -> ->; now right|left; right; eauto]. }
      destruct K as [K|K]; [|destruct (A7 d (or_introl K)) as [K1|K1]; auto]. destruct (B4 d K) as [K1|[K1|[K1|K1]]]; auto. discriminate. }
  destruct now as [d|]; [|now injection E as <-]. cbv zeta in E.
  set (stp := t_flag s1 d && handler g d) in *.
  destruct (if stp then match schedule n (invoke s1 d Stp (t_flag s1 d)) d Stp with Some s => Some (set_flag s d false) | None => None end else Some s1) as [s2|] eqn:E2; [|discriminate].
  assert (W2 : W (if stp then None else Some d) [] s2 /\ t_tag s2 = t_tag s1).
  { destruct stp; [|injection E2 as <-; auto]. destruct (schedule n _ d Stp) as [y|] eqn:Y; [|discriminate]. injection E2 as <-. split; [|apply schedule_tag in Y; exact Y].
    apply (W_same None [] y); try reflexivity. apply (IH _ _ _ _ (W_invoke (Some d) s1 d Stp (t_flag s1 d) (or_intror eq_refl) W1)); [|exact Y]. eexists. now left. }
  destruct W2 as [W2 T2].
  set (late := missed g (t_tag s2) d) in *.
  destruct (if late && late_handler g d then schedule n (invoke s2 d Late (t_flag s1 d)) d Late else Some s2) as [s3|] eqn:E3; [|discriminate].
  assert (W3 : W (if stp || late && late_handler g d then None else Some d) [] s3 /\ t_tag s3 = t_tag s2).
  { destruct (late && late_handler g d); [|injection E3 as <-; rewrite orb_false_r; auto]. split; [|apply schedule_tag in E3; exact E3]. rewrite orb_true_r.
    apply (IH _ _ _ _ (W_invoke (if stp then None else Some d) s2 d Late (t_flag s1 d) ltac:(destruct stp; auto) W2)); [|exact E3]. eexists. now left. }
  destruct W3 as [W3 T3].
  destruct (if stp || late then Some s3 else schedule n (invoke s3 d Body (t_flag s1 d)) d Body) as [s4|] eqn:E4; [|discriminate].
  injection E as <-. apply (W_same None [] s4); try reflexivity.
  destruct (stp || late) eqn:SL.
  - injection E4 as <-. destruct (stp || late && late_handler g d) eqn:SH; [exact W3|]. apply orb_false_iff in SH. destruct SH as [S1 S2]. rewrite S1 in SL. cbn [orb] in SL.
    destruct W3 as [B1 B2 B3 B4]. constructor; auto. intros x Hx. destruct (B4 x Hx) as [K|[K|[K|K]]]; auto. injection K as <-. right. right. right. rewrite T3. fold late. rewrite SL in *. auto.
  - apply orb_false_iff in SL. destruct SL as [S1 S2]. rewrite S1, S2 in W3. cbn [andb orb] in W3.
    apply (IH _ _ _ _ (W_invoke (Some d) s3 d Body (t_flag s1 d) (or_intror eq_refl) W3)); [|exact E4]. eexists. now left.
Qed.

Lemma W_msg s r b s' : W None [] s -> s' = trigger (note s (EMsg r b)) r -> W None [] s'.
Proof.
  intros [A B D E] ->. set (s1 := note s (EMsg r b)). destruct (trigger_flag s1 r) as (T1 & T2 & T3 & T4).
  constructor; rewrite ?T2, ?T3, ?T4; change (t_log s1) with (EMsg r b :: t_log s); change (t_set s1) with (t_set s); change (t_tag s1) with (t_tag s).
  - intros u o. rewrite A. split; intros (c & f & K1 & K2); exists c, f; (split; [|exact K2]); [now right|]. destruct K1 as [K1|K1]; [discriminate|exact K1].
  - intros u c d [K|K]; [discriminate|]. destruct (B u c d K) as ((f & K1) & K2). split; [exists f; now right|exact K2].
  - intros u c f o d [K|K] H1 H2 H3; [discriminate|]. destruct (D u c f o d K H1 H2 H3) as [[]|K1]. right. now right.
  - intros d Hd. destruct (Nat.eq_dec d r) as [->|n]; [left; apply trigger_queue; now right|].
    assert (K : sourced (t_log s) d) by (destruct Hd as [(b' & [K|K])|(u & c & [K|K])]; [congruence|left; eauto|discriminate|right; eauto]).
    destruct (E d K) as [K1|[K1|[K1|K1]]]; auto; left; apply trigger_queue; now left.
Qed.
Lemma W_step n s o s' : W None [] s -> tstep g n s o = Some s' -> W None [] s'.
Proof.
  intros HW E. destruct o as [r b|r b|r|]; cbn [tstep] in E.
  - destruct (mem r (t_queue s)); [now injection E as <-|]. injection E as <-. eapply (W_msg (if b then set_flag s r true else s) r b); [|reflexivity]. destruct b; [|exact HW]. now apply (W_same None [] s).
  - destruct (mem r (t_queue s)); [now injection E as <-|]. injection E as <-. eapply (W_msg (set_flag s r b) r b); [|reflexivity]. now apply (W_same None [] s).
  - destruct (mem r (t_queue s)) eqn:M; [|discriminate]. destruct (work n s r) as [s1|] eqn:Wk; [|discriminate]. injection E as <-.
    assert (K : W None [] s1 /\ (In r (runs (t_log s1)) \/ missed g (t_tag s1) r = true /\ late_handler g r = false)).
    { unfold Tardy.work in Wk.
      assert (Go : forall c f s0 x, t_tag s0 = t_tag s -> t_log s0 = t_log (invoke s r c f) -> t_set s0 = t_set (invoke s r c f) -> t_queue s0 = t_queue (invoke s r c f) -> schedule n s0 r c = Some x -> W None [] x /\ In r (runs (t_log x))).
      { intros c f s0 x T0 L0 S0 Q0 X. split.
        - apply (W_schedule n s0 r c); [|exists f; rewrite L0; now left|exact X]. apply (W_same None [(r, c)] (invoke s r c f)); auto. apply (W_invoke None); auto.
        - apply ext_schedule in X. destruct X as [l X]. rewrite X, L0. apply runs_in. exists c, f. apply in_app_iff. right. now left. }
      destruct (missed g (t_tag s) r) eqn:Ms.
      - destruct (late_handler g r) eqn:Lh; [|injection Wk as <-; auto]. destruct (Go Late (t_flag s r) (invoke s r Late (t_flag s r)) s1 eq_refl eq_refl eq_refl eq_refl Wk). auto.
      - destruct (t_flag s r && negb (receiver g r) && handler g r).
        + destruct (schedule n _ r Stp) as [x|] eqn:X; [|discriminate]. injection Wk as <-. destruct (Go Stp (t_flag s r) (set_flag (invoke s r Stp (t_flag s r)) r false) x eq_refl eq_refl eq_refl eq_refl X) as [G1 G2]. split; [now apply (W_same None [] x)|auto].
        + destruct (schedule n _ r Body) as [x|] eqn:X; [|discriminate]. injection Wk as <-. destruct (Go Body (t_flag s r) (invoke s r Body (t_flag s r)) x eq_refl eq_refl eq_refl eq_refl X) as [G1 G2]. split; [now apply (W_same None [] x)|auto]. }
    destruct K as ([A B D F] & Hr). constructor; cbn [t_tag t_set t_log t_queue]; auto.
    intros d Hd. destruct (Nat.eq_dec d r) as [->|ne]; [tauto|]. destruct (F d Hd) as [K|K]; [left|now right]. apply filter_In. split; [exact K|]. now destruct (Nat.eqb_spec d r).
  - destruct (t_queue s); [|discriminate]. injection E as <-. constructor; cbn.
    + intros u o. split; [intros []|intros (c & f & [] & _)].
    + intros u c d [].
    + intros u c f o d [].
    + intros d [(b & [])|(u & c & [])].
Qed.
Lemma W_run_ops n l : forall s s', W None [] s -> trun g n s l = Some s' -> W None [] s'.
Proof. induction l as [|o l IH]; intros s s' HW E; cbn [trun] in E; [now injection E as <-|]. destruct (tstep g n s o) as [s1|] eqn:E1; [|discriminate]. apply (IH s1); [now apply (W_step n s o)|exact E]. Qed.
Lemma W_init : W None [] tinit.
Proof.
  constructor; cbn.
  - intros u o. split; [intros []|intros (c & f & [] & _)].
  - intros u c d [].
  - intros u c f o d [].
  - intros d [(b & [])|(u & c & [])].
Qed.
End S.
