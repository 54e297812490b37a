(** Proof that federated execution is deterministic (C74). *)
From Coq Require Import Sorting.Permutation Sorting.Sorted Arith.
From Verif Require Import Base Tag TagSpec TagProofs Pqueue PqueueProofs RtiDelays RtiDelaysSpec RtiDelaysProofs Rti RtiSpec RtiProofs Federation FederationSpec FederationProofs Progress ProgressSpec ProgressProofs FedData FedDataSpec.
Open Scope Z_scope.

(** ** Lists *)
Lemma perm_filter {A} (p : A -> bool) l1 l2 : Permutation l1 l2 -> Permutation (filter p l1) (filter p l2).
Proof.
  intros H. induction H as [|x l l' H IH|x y l|l l' l'' H1 IH1 H2 IH2]; cbn [filter].
  - constructor.
  - destruct (p x); [constructor; exact IH|exact IH].
  - destruct (p x), (p y); try apply Permutation_refl. apply perm_swap.
  - eapply perm_trans; eassumption.
Qed.
Lemma filter_all {A} (p : A -> bool) l : (forall x, In x l -> p x = true) -> filter p l = l.
Proof. induction l as [|x l IH]; intros H; [reflexivity|]. cbn [filter]. rewrite (H x) by now left. f_equal. apply IH. intros y Hy. apply H. now right. Qed.
Lemma filter_no {A} (p : A -> bool) l : (forall x, In x l -> p x = false) -> filter p l = [].
Proof. induction l as [|x l IH]; intros H; [reflexivity|]. cbn [filter]. rewrite (H x) by now left. apply IH. intros y Hy. apply H. now right. Qed.
Lemma filter_filter_imp {A} (p q : A -> bool) l : (forall x, In x l -> p x = true -> q x = true) -> filter p (filter q l) = filter p l.
Proof.
  induction l as [|x l IH]; intros H; [reflexivity|]. cbn [filter]. assert (IH' := IH (fun y Hy => H y (or_intror Hy))). specialize (H x (or_introl eq_refl)). destruct (q x) eqn:Q; cbn [filter].
  - rewrite IH'. reflexivity.
  - destruct (p x) eqn:P; [specialize (H eq_refl); discriminate|exact IH'].
Qed.
Lemma filter_flat_map {A B} (p : B -> bool) (f : A -> list B) l : filter p (flat_map f l) = flat_map (fun x => filter p (f x)) l.
Proof. induction l as [|x l IH]; [reflexivity|]. cbn [flat_map]. rewrite filter_app, IH. reflexivity. Qed.
Lemma filter_map {A B} (p : B -> bool) (f : A -> B) l : filter p (map f l) = map f (filter (fun x => p (f x)) l).
Proof. induction l as [|x l IH]; [reflexivity|]. cbn [map filter]. rewrite IH. destruct (p (f x)); reflexivity. Qed.
Lemma flat_map_in_ext {A B} (f g : A -> list B) l : (forall x, In x l -> f x = g x) -> flat_map f l = flat_map g l.
Proof. induction l as [|x l IH]; intros H; [reflexivity|]. cbn [flat_map]. rewrite (H x) by now left. f_equal. apply IH. intros y Hy. apply H. now right. Qed.
(** One element of the list contributes more. *)
Lemma flat_map_more {A B} (dec : forall x y : A, {x = y} + {x <> y}) (f g : A -> list B) X k l : NoDup l -> In k l -> (forall x, x <> k -> g x = f x) -> Permutation (g k) (X ++ f k) ->
  Permutation (flat_map g l) (X ++ flat_map f l).
Proof.
  intros N Hk He Hp. induction l as [|x l IH]; [destruct Hk|]. inversion N as [|x' l' Nx Nl]; subst x' l'. cbn [flat_map]. destruct (dec x k) as [->|ne].
  - rewrite app_assoc. apply Permutation_app; [exact Hp|]. rewrite (flat_map_in_ext g f); [apply Permutation_refl|]. intros y Hy. apply He. intros ->. exact (Nx Hy).
  - destruct Hk as [Hk|Hk]; [congruence|]. rewrite (He x ne). eapply perm_trans; [apply Permutation_app_head, (IH Nl Hk)|]. rewrite !app_assoc. apply Permutation_app_tail, Permutation_app_comm.
Qed.

Lemma tag_eqb_spec a b : tag_eqb a b = true <-> a = b.
Proof. unfold tag_eqb. apply cmp_eq0. Qed.
Lemma tag_eqb_refl a : tag_eqb a a = true.
Proof. apply tag_eqb_spec. reflexivity. Qed.

Lemma at_tag_in {A} t (l : list (tag * A)) x : In x (at_tag t l) <-> In x l /\ fst x = t.
Proof. unfold at_tag. rewrite filter_In, tag_eqb_spec. split; intros (H1 & H2); auto. Qed.
Lemma at_tag_app {A} t (l1 l2 : list (tag * A)) : at_tag t (l1 ++ l2) = at_tag t l1 ++ at_tag t l2.
Proof. apply filter_app. Qed.
Lemma at_not_perm {A} t (l : list (tag * A)) : Permutation l (at_tag t l ++ not_at t l).
Proof.
  unfold at_tag, not_at. induction l as [|x l IH]; [constructor|]. cbn [filter]. destruct (tag_eqb t (fst x)); cbn [negb app].
  - constructor. exact IH.
  - eapply perm_trans; [apply perm_skip, IH|]. apply Permutation_middle.
Qed.
Lemma at_tag_pairs {A} t (l : list (tag * A)) : at_tag t l = map (pair t) (map snd (at_tag t l)).
Proof.
  unfold at_tag. induction l as [|(x & a) l IH]; [reflexivity|]. cbn [filter fst]. destruct (tag_eqb t x) eqn:E; [|exact IH]. apply tag_eqb_spec in E. subst x. cbn [map snd]. f_equal. exact IH.
Qed.

(** ** Histories *)
Definition upto {A} (o : tag) (l : list (tag * A)) : list (tag * A) := filter (fun e => tag_leb (fst e) o) l.
Lemma leb_spec a b : tag_leb a b = true <-> tag_le a b.
Proof. unfold tag_leb. apply cmp_le0. Qed.
Lemma ltb_spec a b : tag_ltb a b = true <-> tag_lt a b.
Proof. unfold tag_ltb. apply cmp_lt0. Qed.
Lemma upto_in {A} o (l : list (tag * A)) x : In x (upto o l) <-> In x l /\ tag_le (fst x) o.
Proof. unfold upto. rewrite filter_In, leb_spec. reflexivity. Qed.
Lemma upto_app {A} o (l1 l2 : list (tag * A)) : upto o (l1 ++ l2) = upto o l1 ++ upto o l2.
Proof. apply filter_app. Qed.
Lemma upto_none {A} o (l : list (tag * A)) : (forall x, In x l -> tag_lt o (fst x)) -> upto o l = [].
Proof.
  intros H. apply filter_no. intros x Hx. destruct (tag_leb (fst x) o) eqn:E; [|reflexivity]. apply leb_spec in E. specialize (H x Hx). exfalso. apply (tag_lt_irrefl o). eapply tag_lt_le_trans; eassumption.
Qed.
Lemma upto_all {A} o (l : list (tag * A)) : (forall x, In x l -> tag_le (fst x) o) -> upto o l = l.
Proof. intros H. apply filter_all. intros x Hx. apply leb_spec, H, Hx. Qed.

Definition increasing {A} (l : list (tag * A)) : Prop := StronglySorted (fun a b => tag_lt (fst a) (fst b)) l.
Lemma increasing_snoc {A} (l : list (tag * A)) x : increasing l -> (forall e, In e l -> tag_lt (fst e) (fst x)) -> increasing (l ++ [x]).
Proof.
  intros H Hx. induction H as [|a l H IH F]; [repeat constructor|]. cbn [app]. constructor; [apply IH; intros e He; apply Hx; now right|].
  apply Forall_app. split; [exact F|]. constructor; [apply Hx; now left|constructor].
Qed.
(** Beginnings are beginnings. *)
Lemma upto_firstn {A} o (l : list (tag * A)) : increasing l -> upto o l = firstn (length (upto o l)) l.
Proof.
  intros H. induction H as [|a l H IH F]; [reflexivity|]. unfold upto in *. cbn [filter]. destruct (tag_leb (fst a) o) eqn:E.
  - cbn [length firstn]. f_equal. exact IH.
  - fold (upto o l). rewrite upto_none; [reflexivity|]. intros x Hx. rewrite Forall_forall in F. eapply tag_le_lt_trans; [|apply F, Hx].
    destruct (tag_le_total o (fst a)) as [K|K]; [exact K|]. apply tag_lt_le, leb_spec in K. congruence.
Qed.
Lemma increasing_upto {A} o (l : list (tag * A)) : increasing l -> increasing (upto o l).
Proof.
  intros H. induction H as [|a l H IH F]; [constructor|]. unfold upto in *. cbn [filter]. destruct (tag_leb (fst a) o); [|exact IH]. constructor; [exact IH|].
  rewrite Forall_forall in *. intros x Hx. apply filter_In in Hx. apply F, Hx.
Qed.

Section Histories.
Context {X : Type}.
Definition flatten (l : list (tag * list X)) : list (tag * X) := flat_map (fun e => map (pair (fst e)) (snd e)) l.
Lemma flatten_in l t x : In (t, x) (flatten l) <-> exists xs, In (t, xs) l /\ In x xs.
Proof.
  unfold flatten. rewrite in_flat_map. split.
  - intros ((t' & xs) & H1 & H2). cbn [fst snd] in H2. apply in_map_iff in H2. destruct H2 as (y & E & Hy). injection E as -> ->. eauto.
  - intros (xs & H1 & H2). exists (t, xs). split; [exact H1|]. cbn [fst snd]. apply in_map, H2.
Qed.
Lemma at_tag_flatten_none t (l : list (tag * list X)) : (forall e, In e l -> fst e <> t) -> at_tag t (flatten l) = [].
Proof.
  intros H. apply filter_no. intros (x & v) Hx. apply flatten_in in Hx. destruct Hx as (xs & Hx & _). cbn [fst]. destruct (tag_eqb t x) eqn:E; [|reflexivity]. apply tag_eqb_spec in E. subst x. exfalso. exact (H _ Hx eq_refl).
Qed.
Lemma at_tag_pair t (xs : list X) : at_tag t (map (pair t) xs) = map (pair t) xs.
Proof. apply filter_all. intros x Hx. apply in_map_iff in Hx. destruct Hx as (y & <- & _). apply tag_eqb_refl. Qed.
Lemma at_tag_entry t xs (l : list (tag * list X)) : increasing l -> In (t, xs) l -> at_tag t (flatten l) = map (pair t) xs.
Proof.
  intros H. induction H as [|a l H IH F]; intros Hin; [destruct Hin|]. unfold flatten. cbn [flat_map]. fold (flatten l). rewrite at_tag_app. rewrite Forall_forall in F. destruct Hin as [->|Hin].
  - cbn [fst snd]. rewrite at_tag_pair, at_tag_flatten_none, app_nil_r; [reflexivity|]. intros e He E. specialize (F e He). cbn [fst] in F. rewrite E in F. exact (tag_lt_irrefl _ F).
  - rewrite (IH Hin). replace (at_tag t (map (pair (fst a)) (snd a))) with (@nil (tag * X)); [reflexivity|]. symmetry. apply filter_no. intros x Hx. apply in_map_iff in Hx. destruct Hx as (y & <- & _). cbn [fst].
    destruct (tag_eqb t (fst a)) eqn:E; [|reflexivity]. apply tag_eqb_spec in E. specialize (F _ Hin). cbn [fst] in F. rewrite <- E in F. exfalso. exact (tag_lt_irrefl _ F).
Qed.

Definition same (a b : tag * list X) : Prop := fst a = fst b /\ Permutation (snd a) (snd b).
Lemma pairs_perm (t : tag) (l1 l2 : list X) : Permutation (map (pair t) l1) (map (pair t) l2) -> Permutation l1 l2.
Proof. intros H. apply (Permutation_map snd) in H. rewrite !map_map in H. cbn [snd] in H. rewrite !map_id in H. exact H. Qed.

(** Two histories with the same inputs at all tags up to [o]. *)
Lemma histories_agree : forall (l1 l2 : list (tag * list X)), increasing l1 -> increasing l2 -> (forall e, In e l1 -> snd e <> []) -> (forall e, In e l2 -> snd e <> []) ->
  (forall t, In t (map fst (l1 ++ l2)) -> Permutation (at_tag t (flatten l1)) (at_tag t (flatten l2))) -> Forall2 same l1 l2.
Proof.
  assert (Only : forall (a : tag * list X) l, snd a <> [] -> increasing l -> Permutation (at_tag (fst a) (flatten [])) (at_tag (fst a) (flatten l)) -> ~ In a l).
  { intros (t & xs) l Hn Hi Hp Hin. cbn [fst] in Hp. rewrite (at_tag_entry t xs l Hi Hin) in Hp. cbn in Hp. apply Permutation_nil in Hp. destruct xs; [now apply Hn|discriminate]. }
  induction l1 as [|a l1 IH]; intros l2 H1 H2 N1 N2 Hp.
  - destruct l2 as [|b l2]; [constructor|]. exfalso. apply (Only b (b :: l2)); [apply N2; now left|exact H2| |now left]. apply Hp. now left.
  - destruct l2 as [|b l2].
    + exfalso. apply (Only a (a :: l1)); [apply N1; now left|exact H1| |now left]. apply Permutation_sym, Hp. now left.
    + inversion H1 as [|? ? I1 F1]; subst. inversion H2 as [|? ? I2 F2]; subst. rewrite Forall_forall in F1, F2. destruct a as [ta xa], b as [tb xb]. cbn [fst] in *.
      assert (Na : xa <> []) by (apply (N1 (ta, xa)); now left). assert (Nb : xb <> []) by (apply (N2 (tb, xb)); now left).
      assert (Pa : Permutation (map (pair ta) xa) (at_tag ta (flatten ((tb, xb) :: l2)))) by (rewrite <- (at_tag_entry ta xa ((ta, xa) :: l1) H1 (or_introl eq_refl)); apply Hp; now left).
      assert (Pb : Permutation (at_tag tb (flatten ((ta, xa) :: l1))) (map (pair tb) xb)) by (rewrite <- (at_tag_entry tb xb ((tb, xb) :: l2) H2 (or_introl eq_refl)); apply Hp; rewrite map_app; apply in_or_app; right; now left).
      assert (E : ta = tb).
      { destruct (tag_lt_trichotomy ta tb) as [K|[K|K]]; [exfalso|exact K|exfalso].
        - rewrite at_tag_flatten_none in Pa; [apply Permutation_sym, Permutation_nil in Pa; destruct xa; [now apply Na|discriminate]|]. intros e [<-|He] Ee; [cbn [fst] in Ee; subst tb; exact (tag_lt_irrefl _ K)|].
          specialize (F2 _ He). rewrite Ee in F2. exact (tag_lt_irrefl _ (tag_lt_trans _ _ _ K F2)).
        - rewrite at_tag_flatten_none in Pb; [apply Permutation_nil in Pb; destruct xb; [now apply Nb|discriminate]|]. intros e [<-|He] Ee; [cbn [fst] in Ee; subst tb; exact (tag_lt_irrefl _ K)|].
          specialize (F1 _ He). rewrite Ee in F1. exact (tag_lt_irrefl _ (tag_lt_trans _ _ _ K F1)). }
      subst tb. constructor.
      * split; [reflexivity|]. cbn [snd]. rewrite (at_tag_entry ta xb ((ta, xb) :: l2) H2 (or_introl eq_refl)) in Pa. exact (pairs_perm _ _ _ Pa).
      * apply IH; try assumption; [intros e He; apply N1; now right|intros e He; apply N2; now right|].
        intros t Ht. assert (Hlt : tag_lt ta t). { rewrite map_app in Ht. apply in_app_or in Ht. destruct Ht as [Ht|Ht]; apply in_map_iff in Ht; destruct Ht as (e & <- & He); [apply F1, He|apply F2, He]. }
        assert (Hp' : Permutation (at_tag t (flatten ((ta, xa) :: l1))) (at_tag t (flatten ((ta, xb) :: l2)))).
        { apply Hp. rewrite map_app in *. cbn [map]. apply in_app_or in Ht. apply in_or_app. destruct Ht as [Ht|Ht]; [left|right]; now right. }
        unfold flatten in Hp'. cbn [flat_map] in Hp'. fold (flatten l1) (flatten l2) in Hp'. rewrite !at_tag_app in Hp'.
        assert (Z0 : forall ys : list X, at_tag t (map (pair ta) ys) = []). { intros ys. apply filter_no. intros x Hx. apply in_map_iff in Hx. destruct Hx as (y & <- & _). cbn [fst]. destruct (tag_eqb t ta) eqn:E; [|reflexivity]. apply tag_eqb_spec in E. subst t. exfalso. exact (tag_lt_irrefl _ Hlt). }
        cbn [fst snd] in Hp'. rewrite !Z0 in Hp'. exact Hp'.
Qed.
Lemma upto_flatten o t (l : list (tag * list X)) : tag_le t o -> at_tag t (flatten (upto o l)) = at_tag t (flatten l).
Proof.
  intros H. unfold flatten, at_tag. rewrite !filter_flat_map. induction l as [|a l IH]; [reflexivity|]. unfold upto in *. cbn [filter]. destruct (tag_leb (fst a) o) eqn:E; cbn [flat_map]; [now rewrite IH|].
  rewrite IH. replace (filter _ (map (pair (fst a)) (snd a))) with (@nil (tag * X)); [reflexivity|]. symmetry. apply filter_no. intros x Hx. apply in_map_iff in Hx. destruct Hx as (y & <- & _). cbn [fst].
  destruct (tag_eqb t (fst a)) eqn:Et; [|reflexivity]. apply tag_eqb_spec in Et. subst t. apply leb_spec in H. congruence.
Qed.
End Histories.

(** ** What the coordinator writes *)
Definition msgs (l : list rmsg) : list tag := flat_map (fun m => match m with MMsg t => [t] | _ => [] end) l.
Definition ups (l : list umsg) : list (nat * tag) := flat_map (fun m => match m with UMsg j t _ => [(j, t)] | _ => [] end) l.
Lemma msgs_app l1 l2 : msgs (l1 ++ l2) = msgs l1 ++ msgs l2.
Proof. apply flat_map_app. Qed.
Lemma ups_app l1 l2 : ups (l1 ++ l2) = ups l1 ++ ups l2.
Proof. apply flat_map_app. Qed.
Lemma msgs_in t l : In (MMsg t) l <-> In t (msgs l).
Proof.
  unfold msgs. rewrite in_flat_map. split; [intros H; exists (MMsg t); split; [exact H|now left]|]. intros (m & H1 & H2). destruct m; try destruct H2 as [->|[]]; try destruct H2. exact H1.
Qed.
Lemma ups_in j t l : In (j, t) (ups l) <-> exists o, In (UMsg j t o) l.
Proof.
  unfold ups. rewrite in_flat_map. split.
  - intros (m & H1 & H2). destruct m as [x|x|x|j' t' o|]; try destruct H2 as [E|[]]; try destruct H2. injection E as -> ->. exists o. exact H1.
  - intros (o & H). exists (UMsg j t o). split; [exact H|now left].
Qed.

Definition quiet (s0 s : rti) : Prop := forall i, exists l, r_sent (s i) = r_sent (s0 i) ++ l /\ msgs l = [].
Lemma quiet_refl s : quiet s s.
Proof. intros i. exists []. rewrite app_nil_r. auto. Qed.
Lemma quiet_on s0 s e f : quiet s0 s -> (exists l, r_sent (f (s e)) = r_sent (s e) ++ l /\ msgs l = []) -> quiet s0 (on s e f).
Proof.
  intros H (l & E & M) i. destruct (Nat.eq_dec e i) as [<-|n]; [rewrite on_same|rewrite on_other by exact n; apply H]. destruct (H e) as (l0 & E0 & M0). exists (l0 ++ l). rewrite E, E0, app_assoc, msgs_app, M0, M. auto.
Qed.
Lemma quiet_same s0 s e f : quiet s0 s -> r_sent (f (s e)) = r_sent (s e) -> quiet s0 (on s e f).
Proof. intros H E. apply quiet_on; [exact H|]. exists []. rewrite app_nil_r. auto. Qed.
Lemma quiet_tag s0 ok s e t : quiet s0 s -> quiet s0 (notify_tag ok s e t).
Proof.
  intros H. unfold notify_tag. destruct (_ || _ || _); [exact H|]. destruct (ok e); [|apply quiet_same; [exact H|reflexivity]]. apply quiet_on; [exact H|]. exists [MTag t]. auto.
Qed.
Lemma quiet_safe s0 tp start ok s e : quiet s0 s -> quiet s0 (notify_if_safe tp start ok s e).
Proof.
  apply notify_if_safe_P; intros; first [apply quiet_tag; assumption|apply quiet_same; [assumption|reflexivity]|apply quiet_on; [assumption|eexists [_]; split; reflexivity]].
Qed.
Lemma quiet_update s0 tp start ok s i t : quiet s0 s -> quiet s0 (update_fed_next tp start ok s i t).
Proof.
  intros H. unfold update_fed_next. apply update_next_P; [intros; apply quiet_safe; assumption|apply quiet_same; [exact H|reflexivity]|]. intros _. apply quiet_same; [apply quiet_same; [exact H|reflexivity]|reflexivity].
Qed.
Lemma quiet_complete s0 tp start ok s i t : quiet s0 s -> quiet s0 (tag_complete tp start ok s i t).
Proof. intros H. apply tag_complete_P; [intros; apply quiet_safe; assumption|apply quiet_same; [exact H|reflexivity]]. Qed.
Lemma quiet_forward tp start s j t s' : r_connected (s j) = true -> forward tp start (fun _ => true) s j t = Some s' -> quiet (on s j (add_sent (MMsg t))) s'.
Proof.
  intros C E. unfold forward in E. rewrite C in E. cbn [negb] in E. injection E as <-.
  match goal with |- quiet _ (if _ then update_fed_next tp start _ ?a j t else _) => assert (K : quiet (on s j (add_sent (MMsg t))) a) end.
  { destruct (_ <? 0); [|apply quiet_refl]. apply quiet_same; [apply quiet_refl|reflexivity]. }
  destruct (tag_compare t _ <? 0); [apply quiet_update, K|exact K].
Qed.

(** ** The invariant of one execution *)
Section Data.
Variables St V : Type.
Variable g : program St V.
Variable tp : topo.
Variable start : Z.
Hypothesis Htp : topo_ok tp.
Hypothesis Hrange : forall i, (tp_n tp <= i)%nat -> tp_up tp i = [].
Hypothesis Hz : no_zero_delay_cycle tp.
Hypothesis Hs : 0 <= start < FOREVER.

Fixpoint replay (i : nat) (st : St) (l : list (tag * list (input V))) : St * list (tag * effect V) :=
  match l with
  | [] => (st, [])
  | (t, xs) :: l => let (st1, es) := g_react g i st t xs in let (st2, r) := replay i st1 l in (st2, map (pair t) es ++ r)
  end.
Lemma replay_snoc i t xs l : forall st st1 es, replay i st l = (st1, es) ->
  replay i st (l ++ [(t, xs)]) = (fst (g_react g i st1 t xs), es ++ map (pair t) (snd (g_react g i st1 t xs))).
Proof.
  induction l as [|(t0 & xs0) l IH]; intros st st1 es E.
  - cbn in E. injection E as <- <-. cbn. destruct (g_react g i st t xs) as [a b]. cbn. rewrite app_nil_r. reflexivity.
  - cbn [replay app] in *. destruct (g_react g i st t0 xs0) as [st2 es2]. destruct (replay i st2 l) as [st3 r] eqn:R. injection E as <- <-. rewrite (IH _ _ _ R). rewrite app_assoc. reflexivity.
Qed.

Definition good_eff (i : nat) (oe : tag * effect V) : Prop :=
  small tp start (fst oe) /\
  match snd oe with
  | ESched t _ => tag_lt (fst oe) t
  | ESend j c _ => small tp start (delay_tag (fst oe) c) /\ exists d0, In (i, d0) (tp_up tp j) /\ tag_le (delayZ (fst oe) d0) (delay_tag (fst oe) c)
  end.

Record dlocal (i : nat) (f : fed) (n : rnode) (d : dfed St V) : Prop := {
  dl_alive : f_alive f = true;
  dl_queue : f_queue f = map fst (d_ev d);
  dl_up : map fst (d_up d) = ups (f_up f);
  dl_in : map fst (d_in d) = msgs (skipn (f_rcvd f) (r_sent n));
  dl_ext : forall e, In e (d_ext d) -> small tp start (fst e) -> tag_le (f_promise f) (fst e) /\ tag_lt (f_done f) (fst e);
  dl_todo : d_todo d <> [] -> f_cur f = Some (f_done f);
  dl_inc : increasing (d_trace d);
  dl_trace : forall e, In e (d_trace d) -> snd e <> [] /\ small tp start (fst e) /\ tag_le (fst e) (f_done f);
  dl_replay : replay i (g_init g i) (d_trace d) = (d_state d, d_log d ++ map (pair (f_done f)) (d_todo d));
  dl_good : forall e, In e (d_log d) -> good_eff i e }.

Definition ext_in (e : tag * V) : tag * input V := (fst e, IExt (snd e)).
Definition out (k i : nat) (oe : tag * effect V) : list (tag * input V) :=
  match snd oe with
  | ESched t v => if (k =? i)%nat then [(t, IOwn v)] else []
  | ESend j c v => if (j =? i)%nat then [(delay_tag (fst oe) c, IMsg k v)] else []
  end.
Definition up_to (k i : nat) (u : nat * tag * V) : list (tag * input V) := if (fst (fst u) =? i)%nat then [(snd (fst u), IMsg k (snd u))] else [].
Definition produced (ds : nat -> dfed St V) (i : nat) : list (tag * input V) :=
  map ext_in (g_ext g i) ++ flat_map (fun k => flat_map (out k i) (d_log (ds k))) (seq 0 (tp_n tp)).
Definition travelling (ds : nat -> dfed St V) (i : nat) : list (tag * input V) := flat_map (fun k => flat_map (up_to k i) (d_up (ds k))) (seq 0 (tp_n tp)).
Definition rest_of (ds : nat -> dfed St V) (i : nat) : list (tag * input V) :=
  map ext_in (d_ext (ds i)) ++ d_ev (ds i) ++ d_in (ds i) ++ travelling ds i ++ flatten (d_trace (ds i)).
Definition conserved (ds : nat -> dfed St V) : Prop := forall i, Permutation (produced ds i) (rest_of ds i).

Record DInv (y : dsys St V) : Prop := {
  v_inv : Inv tp start (y_fed (d_sys y)) (y_rti (d_sys y));
  v_loc : forall i, dlocal i (y_fed (d_sys y) i) (y_rti (d_sys y) i) (d_fed y i);
  v_cons : conserved (d_fed y) }.

(** *** Conservation *)
Lemma produced_same ds ds' i : (forall k, d_log (ds' k) = d_log (ds k)) -> produced ds' i = produced ds i.
Proof. intros H. unfold produced. f_equal. apply flat_map_in_ext. intros k _. now rewrite H. Qed.
Lemma travelling_same ds ds' i : (forall k, d_up (ds' k) = d_up (ds k)) -> travelling ds' i = travelling ds i.
Proof. intros H. unfold travelling. apply flat_map_in_ext. intros k _. now rewrite H. Qed.
Lemma produced_more ds ds' k e i : (k < tp_n tp)%nat -> (forall x, x <> k -> d_log (ds' x) = d_log (ds x)) -> d_log (ds' k) = d_log (ds k) ++ [e] ->
  Permutation (produced ds' i) (out k i e ++ produced ds i).
Proof.
  intros Hk H E. unfold produced. eapply perm_trans; [apply Permutation_app_head|].
  - apply (flat_map_more Nat.eq_dec (fun k => flat_map (out k i) (d_log (ds k))) _ (out k i e) k); [apply seq_NoDup|apply in_seq; lia|intros x Hx; now rewrite H|].
    rewrite E, flat_map_app. cbn [flat_map]. rewrite app_nil_r. apply Permutation_app_comm.
  - rewrite !app_assoc. apply Permutation_app_tail, Permutation_app_comm.
Qed.
Lemma travelling_more ds ds' k u i : (k < tp_n tp)%nat -> (forall x, x <> k -> d_up (ds' x) = d_up (ds x)) -> d_up (ds' k) = d_up (ds k) ++ [u] ->
  Permutation (travelling ds' i) (up_to k i u ++ travelling ds i).
Proof.
  intros Hk H E. unfold travelling. apply (flat_map_more Nat.eq_dec (fun k => flat_map (up_to k i) (d_up (ds k))) _ (up_to k i u) k); [apply seq_NoDup|apply in_seq; lia|intros x Hx; now rewrite H|].
  rewrite E, flat_map_app. cbn [flat_map]. rewrite app_nil_r. apply Permutation_app_comm.
Qed.
Lemma travelling_less ds ds' k u i : (k < tp_n tp)%nat -> (forall x, x <> k -> d_up (ds' x) = d_up (ds x)) -> d_up (ds k) = u :: d_up (ds' k) ->
  Permutation (travelling ds i) (up_to k i u ++ travelling ds' i).
Proof.
  intros Hk H E. unfold travelling. apply (flat_map_more Nat.eq_dec (fun k => flat_map (up_to k i) (d_up (ds' k))) _ (up_to k i u) k); [apply seq_NoDup|apply in_seq; lia|intros x Hx; now rewrite H|].
  rewrite E. apply Permutation_refl.
Qed.
Lemma pick_perm t (l : list (tag * V)) v r : pick t l = Some (v, r) -> Permutation l ((t, v) :: r).
Proof.
  revert v r. induction l as [|(x & w) l IH]; intros v r E; [discriminate|]. cbn [pick] in E. destruct (tag_eqb t x) eqn:Et.
  - apply tag_eqb_spec in Et. subst x. injection E as <- <-. apply Permutation_refl.
  - destruct (pick t l) as [(w' & r')|] eqn:P; [|discriminate]. injection E as <- <-. eapply perm_trans; [apply perm_skip, (IH _ _ eq_refl)|]. apply perm_swap.
Qed.

Lemma cons_by ds ds' : conserved ds -> (forall x, exists A, Permutation (produced ds' x) (A ++ produced ds x) /\ Permutation (A ++ rest_of ds x) (rest_of ds' x)) -> conserved ds'.
Proof. intros H K x. destruct (K x) as (A & K1 & K2). eapply perm_trans; [exact K1|]. eapply perm_trans; [apply Permutation_app_head, H|exact K2]. Qed.
Lemma log_upd ds i d' x : d_log d' = d_log (ds i) -> produced (upd ds i d') x = produced ds x.
Proof. intros E. apply produced_same. intros k. destruct (Nat.eq_dec k i) as [->|n]; [rewrite upd_eq; exact E|rewrite upd_neq by exact n; reflexivity]. Qed.
Lemma trav_upd ds i d' x : d_up d' = d_up (ds i) -> travelling (upd ds i d') x = travelling ds x.
Proof. intros E. apply travelling_same. intros k. destruct (Nat.eq_dec k i) as [->|n]; [rewrite upd_eq; exact E|rewrite upd_neq by exact n; reflexivity]. Qed.
Lemma rest_other ds i d' x : x <> i -> d_up d' = d_up (ds i) -> rest_of (upd ds i d') x = rest_of ds x.
Proof. intros n E. unfold rest_of. rewrite (trav_upd ds i d' x E), upd_neq by exact n. reflexivity. Qed.
Lemma rest_here ds i d' : d_up d' = d_up (ds i) -> rest_of (upd ds i d') i = map ext_in (d_ext d') ++ d_ev d' ++ d_in d' ++ travelling ds i ++ flatten (d_trace d').
Proof. intros E. unfold rest_of. rewrite (trav_upd ds i d' i E), upd_eq. reflexivity. Qed.

(** *** One federate *)
Lemma all_connected y i : DInv y -> r_connected (y_rti (d_sys y) i) = true.
Proof.
  intros H. destruct (r_connected (y_rti (d_sys y) i)) eqn:C; [reflexivity|]. pose proof (i_local _ _ _ _ (v_inv y H) i) as L. destruct (l_conn _ _ _ _ _ L C) as (K & _). pose proof (dl_alive _ _ _ _ (v_loc y H i)). congruence.
Qed.
Lemma dinv_one y f' ds' i : DInv y -> Inv tp start (upd (y_fed (d_sys y)) i f') (y_rti (d_sys y)) -> (forall j, j <> i -> ds' j = d_fed y j) -> dlocal i f' (y_rti (d_sys y) i) (ds' i) -> conserved ds' ->
  DInv (mkDsys (set_fed (d_sys y) i f') ds').
Proof.
  intros H HI Hd L C. constructor; cbn [d_sys d_fed set_fed y_fed y_rti]; [exact HI| |exact C]. intros x. destruct (Nat.eq_dec x i) as [->|n]; [rewrite upd_eq; exact L|]. rewrite upd_neq, Hd by exact n. apply (v_loc y H).
Qed.
Lemma dlocal_by i f n d f' n' d' : dlocal i f n d -> f_alive f' = true -> f_queue f' = f_queue f -> f_cur f' = f_cur f -> f_done f' = f_done f -> f_promise f' = f_promise f ->
  map fst (d_up d') = ups (f_up f') -> map fst (d_in d') = msgs (skipn (f_rcvd f') (r_sent n')) ->
  d_state d' = d_state d -> d_todo d' = d_todo d -> d_log d' = d_log d -> d_ev d' = d_ev d -> d_ext d' = d_ext d -> d_trace d' = d_trace d -> dlocal i f' n' d'.
Proof.
  intros L E1 E2 E3 E4 E5 U M D1 D2 D3 D4 D5 D6. destruct L. constructor; rewrite ?E2, ?E3, ?E4, ?E5, ?D1, ?D2, ?D3, ?D4, ?D5, ?D6; assumption.
Qed.

Lemma dinv_net y i t f' : DInv y -> f_alive (y_fed (d_sys y) i) = true -> (forall e, In e (d_ext (d_fed y i)) -> tag_le t (fst e)) ->
  (let f := y_fed (d_sys y) i in f' = mkFed true (f_queue f) None (f_done f) (f_grant f) (if tag_ltb (f_promise f) t then t else f_promise f) (f_up f ++ [UNet t]) (f_rcvd f)) -> f_cur (y_fed (d_sys y) i) = None ->
  Inv tp start (upd (y_fed (d_sys y)) i f') (y_rti (d_sys y)) -> DInv (mkDsys (set_fed (d_sys y) i f') (d_fed y)).
Proof.
  cbn zeta. intros H Ha Hx Ef Hc HI. apply dinv_one; [exact H|exact HI|auto| |apply (v_cons y H)]. subst f'. pose proof (v_loc y H i) as L. destruct L. constructor; cbn [f_alive f_queue f_cur f_done f_promise f_up f_rcvd]; try assumption; try reflexivity.
  - rewrite ups_app, dl_up0. cbn. rewrite app_nil_r. reflexivity.
  - intros e He Se. destruct (dl_ext0 e He Se) as (K1 & K2). split; [|exact K2]. destruct (tag_ltb (f_promise _) t); [apply Hx, He|exact K1].
  - intros K. apply dl_todo0 in K. congruence.
Qed.
Lemma dinv_event y i t v rest f' : DInv y -> pick t (d_ext (d_fed y i)) = Some (v, rest) ->
  (let f := y_fed (d_sys y) i in f' = mkFed true (t :: f_queue f) (f_cur f) (f_done f) (f_grant f) (f_promise f) (f_up f) (f_rcvd f)) ->
  Inv tp start (upd (y_fed (d_sys y)) i f') (y_rti (d_sys y)) ->
  DInv (mkDsys (set_fed (d_sys y) i f') (let d := d_fed y i in upd (d_fed y) i (mkDfed (d_state d) (d_todo d) (d_log d) ((t, IExt v) :: d_ev d) (d_up d) (d_in d) rest (d_trace d)))).
Proof.
  cbn zeta. intros H P Ef HI. apply pick_perm in P. apply dinv_one; [exact H|exact HI|intros j n; apply upd_neq, n| |].
  - rewrite upd_eq. subst f'. pose proof (v_loc y H i) as L. destruct L. constructor; cbn [f_alive f_queue f_cur f_done f_promise f_up f_rcvd d_state d_todo d_log d_ev d_up d_in d_ext d_trace]; try assumption; try reflexivity.
    + cbn [map fst]. f_equal. exact dl_queue0.
    + intros e He. apply dl_ext0. apply (Permutation_in e (Permutation_sym P)). now right.
  - apply (cons_by (d_fed y)); [apply (v_cons y H)|]. intros x. exists []. cbn [app]. rewrite log_upd by reflexivity. split; [apply Permutation_refl|].
    destruct (Nat.eq_dec x i) as [->|n]; [|rewrite rest_other by (exact n || reflexivity); apply Permutation_refl]. rewrite rest_here by reflexivity. unfold rest_of. cbn [d_ext d_ev d_in d_trace].
    eapply perm_trans; [apply Permutation_app_tail, (Permutation_map ext_in), P|]. cbn [map app]. unfold ext_in at 1. cbn [fst snd]. apply Permutation_middle.
Qed.
Lemma dinv_start y i t f' st todo : DInv y -> f_cur (y_fed (d_sys y) i) = None -> In t (f_queue (y_fed (d_sys y) i)) -> (forall e, In e (d_ext (d_fed y i)) -> tag_lt t (fst e)) ->
  (let f := y_fed (d_sys y) i in f' = mkFed true (filter (fun x => negb (tag_eqb t x)) (f_queue f)) (Some t) t (f_grant f) (f_promise f) (f_up f) (f_rcvd f)) ->
  Inv tp start (upd (y_fed (d_sys y)) i f') (y_rti (d_sys y)) -> g_react g i (d_state (d_fed y i)) t (map snd (at_tag t (d_ev (d_fed y i)))) = (st, todo) ->
  DInv (mkDsys (set_fed (d_sys y) i f') (let d := d_fed y i in upd (d_fed y) i (mkDfed st todo (d_log d) (not_at t (d_ev d)) (d_up d) (d_in d) (d_ext d) (d_trace d ++ [(t, map snd (at_tag t (d_ev d)))])))).
Proof.
  cbn zeta. intros H Hc Hq Hx Ef HI R. pose proof (i_local _ _ _ _ (v_inv y H) i) as LI. pose proof (v_loc y H i) as L.
  assert (Lt : tag_lt (f_done (y_fed (d_sys y) i)) t) by (apply (l_queue _ _ _ _ _ LI); [apply L|exact Hq]).
  assert (Sm : small tp start t) by (apply (l_small _ _ _ _ _ LI); split; [apply L|left; exact Hq]).
  assert (Td : d_todo (d_fed y i) = []). { destruct (d_todo (d_fed y i)) eqn:E; [reflexivity|]. exfalso. assert (K : f_cur (y_fed (d_sys y) i) = Some (f_done (y_fed (d_sys y) i))) by (apply (dl_todo _ _ _ _ L); rewrite E; discriminate). congruence. }
  apply dinv_one; [exact H|exact HI|intros j n; apply upd_neq, n| |].
  - rewrite upd_eq. subst f'. destruct L. constructor; cbn [f_alive f_queue f_cur f_done f_promise f_up f_rcvd d_state d_todo d_log d_ev d_up d_in d_ext d_trace]; try assumption; try reflexivity.
    + rewrite dl_queue0. unfold not_at. rewrite filter_map. reflexivity.
    + intros e He Se. split; [apply dl_ext0; assumption|apply Hx, He].
    + apply increasing_snoc; [exact dl_inc0|]. intros e He. cbn [fst]. eapply tag_le_lt_trans; [apply dl_trace0, He|exact Lt].
    + intros e He. apply in_app_or in He. destruct He as [He|[<-|[]]].
      * destruct (dl_trace0 e He) as (K1 & K2 & K3). split; [exact K1|]. split; [exact K2|]. apply tag_lt_le. eapply tag_le_lt_trans; [exact K3|exact Lt].
      * cbn [fst snd]. split; [|split; [exact Sm|apply tag_le_refl]]. rewrite dl_queue0 in Hq. apply in_map_iff in Hq. destruct Hq as (e & Ee & He). intros K. apply map_eq_nil in K. assert (K2 : In e (at_tag t (d_ev (d_fed y i)))) by (apply at_tag_in; auto). rewrite K in K2. destruct K2.
    + rewrite Td in dl_replay0. cbn [map] in dl_replay0. rewrite app_nil_r in dl_replay0. erewrite replay_snoc by exact dl_replay0. rewrite R. reflexivity.
  - apply (cons_by (d_fed y)); [apply (v_cons y H)|]. intros x. exists []. cbn [app]. rewrite log_upd by reflexivity. split; [apply Permutation_refl|].
    destruct (Nat.eq_dec x i) as [->|n]; [|rewrite rest_other by (exact n || reflexivity); apply Permutation_refl]. rewrite rest_here by reflexivity. unfold rest_of. cbn [d_ext d_ev d_in d_trace].
    apply Permutation_app_head. unfold flatten. rewrite flat_map_app. cbn [flat_map fst snd]. rewrite app_nil_r, <- at_tag_pairs. fold (flatten (d_trace (d_fed y i))).
    eapply perm_trans; [apply Permutation_app_tail, (at_not_perm t)|]. rewrite <- app_assoc. eapply perm_trans; [apply Permutation_app_comm|]. rewrite <- !app_assoc. apply Permutation_refl.
Qed.
Lemma cur_small y i c : DInv y -> f_cur (y_fed (d_sys y) i) = Some c -> small tp start (f_done (y_fed (d_sys y) i)) /\ c = f_done (y_fed (d_sys y) i).
Proof.
  intros H E. pose proof (i_local _ _ _ _ (v_inv y H) i) as LI. pose proof (l_cur _ _ _ _ _ LI c E) as <-. split; [|reflexivity]. apply (l_small _ _ _ _ _ LI). split; [apply (v_loc y H i)|auto].
Qed.
Lemma dinv_sched y i t v rest c f' : DInv y -> (i < tp_n tp)%nat -> f_cur (y_fed (d_sys y) i) = Some c -> tag_lt c t -> d_todo (d_fed y i) = ESched t v :: rest ->
  (let f := y_fed (d_sys y) i in f' = mkFed true (t :: f_queue f) (f_cur f) (f_done f) (f_grant f) (f_promise f) (f_up f) (f_rcvd f)) ->
  Inv tp start (upd (y_fed (d_sys y)) i f') (y_rti (d_sys y)) ->
  DInv (mkDsys (set_fed (d_sys y) i f') (let d := d_fed y i in upd (d_fed y) i (mkDfed (d_state d) rest (d_log d ++ [(f_done (y_fed (d_sys y) i), ESched t v)]) ((t, IOwn v) :: d_ev d) (d_up d) (d_in d) (d_ext d) (d_trace d)))).
Proof.
  cbn zeta. intros H Hi Hc Ht Td Ef HI. destruct (cur_small y i c H Hc) as (Sm & ->). apply dinv_one; [exact H|exact HI|intros j n; apply upd_neq, n| |].
  - rewrite upd_eq. subst f'. pose proof (v_loc y H i) as L. destruct L. constructor; cbn [f_alive f_queue f_cur f_done f_promise f_up f_rcvd d_state d_todo d_log d_ev d_up d_in d_ext d_trace]; try assumption; try reflexivity.
    + cbn [map fst]. f_equal. exact dl_queue0.
    + intros _. exact Hc.
    + rewrite dl_replay0, Td. cbn [map]. rewrite <- app_assoc. reflexivity.
    + intros e He. apply in_app_or in He. destruct He as [He|[<-|[]]]; [apply dl_good0, He|]. split; [exact Sm|exact Ht].
  - apply (cons_by (d_fed y)); [apply (v_cons y H)|]. intros x. exists (out i x (f_done (y_fed (d_sys y) i), ESched t v)). split.
    + apply (produced_more _ _ i); [exact Hi|intros k n; rewrite upd_neq by exact n; reflexivity|rewrite upd_eq; reflexivity].
    + unfold out. cbn [snd]. destruct (Nat.eqb_spec i x) as [Ex|n].
      * subst x. rewrite rest_here by reflexivity. unfold rest_of. cbn [d_ext d_ev d_in d_trace app]. apply Permutation_middle.
      * rewrite rest_other by (congruence || reflexivity). apply Permutation_refl.
Qed.
Lemma dinv_send y i j cc v rest c f' : DInv y -> (i < tp_n tp)%nat -> f_cur (y_fed (d_sys y) i) = Some c -> d_todo (d_fed y i) = ESend j cc v :: rest ->
  f' = push (y_fed (d_sys y) i) (UMsg j (delay_tag c cc) c) -> Inv tp start (upd (y_fed (d_sys y)) i f') (y_rti (d_sys y)) ->
  DInv (mkDsys (set_fed (d_sys y) i f') (let d := d_fed y i in let o := f_done (y_fed (d_sys y) i) in
    upd (d_fed y) i (mkDfed (d_state d) rest (d_log d ++ [(o, ESend j cc v)]) (d_ev d) (d_up d ++ [(j, delay_tag o cc, v)]) (d_in d) (d_ext d) (d_trace d)))).
Proof.
  cbn zeta. intros H Hi Hc Td Ef HI. destruct (cur_small y i c H Hc) as (Sm & ->).
  assert (U : up_ok tp start i f' (UMsg j (delay_tag (f_done (y_fed (d_sys y) i)) cc) (f_done (y_fed (d_sys y) i)))).
  { pose proof (i_local _ _ _ _ HI i) as LI. rewrite upd_eq in LI. apply (l_up _ _ _ _ _ LI). subst f'. cbn [push f_up]. apply in_or_app. right. now left. }
  destruct U as (_ & U1 & U2). apply dinv_one; [exact H|exact HI|intros x n; apply upd_neq, n| |].
  - rewrite upd_eq. subst f'. pose proof (v_loc y H i) as L. destruct L. unfold push. constructor; cbn [f_alive f_queue f_cur f_done f_promise f_up f_rcvd d_state d_todo d_log d_ev d_up d_in d_ext d_trace]; try assumption; try reflexivity.
    + rewrite map_app, ups_app, dl_up0. reflexivity.
    + intros _. exact Hc.
    + rewrite dl_replay0, Td. cbn [map]. rewrite <- app_assoc. reflexivity.
    + intros e He. apply in_app_or in He. destruct He as [He|[<-|[]]]; [apply dl_good0, He|]. split; [exact Sm|]. cbn [snd fst]. split; [exact U1|exact U2].
  - apply (cons_by (d_fed y)); [apply (v_cons y H)|]. intros x. set (o := f_done (y_fed (d_sys y) i)) in *. exists (out i x (o, ESend j cc v)). split.
    + apply (produced_more _ _ i); [exact Hi|intros k n; rewrite upd_neq by exact n; reflexivity|rewrite upd_eq; reflexivity].
    + set (ds' := upd (d_fed y) i _). assert (T : Permutation (travelling ds' x) (up_to i x (j, delay_tag o cc, v) ++ travelling (d_fed y) x)).
      { apply travelling_more; [exact Hi|intros k n; unfold ds'; rewrite upd_neq by exact n; reflexivity|unfold ds'; rewrite upd_eq; reflexivity]. }
      change (up_to i x (j, delay_tag o cc, v)) with (out i x (o, ESend j cc v)) in T. set (A := out i x (o, ESend j cc v)) in *. clearbody A.
      assert (E : d_ext (ds' x) = d_ext (d_fed y x) /\ d_ev (ds' x) = d_ev (d_fed y x) /\ d_in (ds' x) = d_in (d_fed y x) /\ d_trace (ds' x) = d_trace (d_fed y x)).
      { unfold ds'. destruct (Nat.eq_dec x i) as [->|n]; [rewrite upd_eq; auto|rewrite upd_neq by exact n; auto]. }
      destruct E as (E1 & E2 & E3 & E4). unfold rest_of. rewrite E1, E2, E3, E4. apply Permutation_sym. rewrite !app_assoc. apply Permutation_app_tail. eapply perm_trans; [apply Permutation_app_head, T|]. rewrite !app_assoc. apply Permutation_app_tail.
      eapply perm_trans; [apply Permutation_app_comm|]. rewrite !app_assoc. apply Permutation_refl.
Qed.
Lemma dinv_complete y i f' ups' : DInv y -> d_todo (d_fed y i) = [] -> ups ups' = ups (f_up (y_fed (d_sys y) i)) ->
  (let f := y_fed (d_sys y) i in f' = mkFed true (f_queue f) None (f_done f) (f_grant f) (f_promise f) ups' (f_rcvd f)) ->
  Inv tp start (upd (y_fed (d_sys y)) i f') (y_rti (d_sys y)) -> DInv (mkDsys (set_fed (d_sys y) i f') (d_fed y)).
Proof.
  cbn zeta. intros H Td Eu Ef HI. apply dinv_one; [exact H|exact HI|auto| |apply (v_cons y H)]. subst f'. pose proof (v_loc y H i) as L. destruct L. constructor; cbn [f_alive f_queue f_cur f_done f_promise f_up f_rcvd]; try assumption; try reflexivity.
  - rewrite Eu. exact dl_up0.
  - intros K. contradiction.
Qed.
Lemma dinv_recv y i m q gr f' ds' : DInv y -> nth_error (r_sent (y_rti (d_sys y) i)) (f_rcvd (y_fed (d_sys y) i)) = Some m -> q = (match m with MMsg t => t :: f_queue (y_fed (d_sys y) i) | _ => f_queue (y_fed (d_sys y) i) end) ->
  (let f := y_fed (d_sys y) i in f' = mkFed true q (f_cur f) (f_done f) gr (f_promise f) (f_up f) (S (f_rcvd f))) ->
  Inv tp start (upd (y_fed (d_sys y)) i f') (y_rti (d_sys y)) ->
  ds' = (let d := d_fed y i in match m, d_in d with
    | MMsg _, x :: rest => upd (d_fed y) i (mkDfed (d_state d) (d_todo d) (d_log d) (x :: d_ev d) (d_up d) rest (d_ext d) (d_trace d)) | _, _ => d_fed y end) ->
  DInv (mkDsys (set_fed (d_sys y) i f') ds').
Proof.
  cbn zeta. intros H En Eq Ef HI Ed. pose proof (v_loc y H i) as L. destruct (nth_split_at tp Hrange (fun _ => y_fed (d_sys y) i) i _ _ _ En) as (Sk & _ & _).
  assert (C : (exists t x rest, m = MMsg t /\ d_in (d_fed y i) = x :: rest /\ fst x = t /\ map fst rest = msgs (skipn (S (f_rcvd (y_fed (d_sys y) i))) (r_sent (y_rti (d_sys y) i)))) \/
              ((forall t, m <> MMsg t) /\ map fst (d_in (d_fed y i)) = msgs (skipn (S (f_rcvd (y_fed (d_sys y) i))) (r_sent (y_rti (d_sys y) i))))).
  { pose proof (dl_in _ _ _ _ L) as K. rewrite Sk in K. destruct m as [t|t|t|t]; cbn [msgs flat_map app] in K; try (right; split; [intros; discriminate|exact K]). left. destruct (d_in (d_fed y i)) as [|x rest]; [discriminate|]. cbn [map] in K. injection K as K1 K2. exists t, x, rest. auto. }
  destruct C as [(t & x & rest & -> & Ei & Ex & Er)|(Nm & Er)].
  - rewrite Ei in Ed. subst ds'. apply dinv_one; [exact H|exact HI|intros j n; apply upd_neq, n| |].
    + rewrite upd_eq. subst f' q. destruct L. constructor; cbn [f_alive f_queue f_cur f_done f_promise f_up f_rcvd d_state d_todo d_log d_ev d_up d_in d_ext d_trace]; try assumption; try reflexivity.
      cbn [map]. rewrite Ex. f_equal. exact dl_queue0.
    + apply (cons_by (d_fed y)); [apply (v_cons y H)|]. intros z. exists []. cbn [app]. rewrite log_upd by reflexivity. split; [apply Permutation_refl|].
      destruct (Nat.eq_dec z i) as [->|n]; [|rewrite rest_other by (exact n || reflexivity); apply Permutation_refl]. rewrite rest_here by reflexivity. unfold rest_of. rewrite Ei. cbn [d_ext d_ev d_in d_trace].
      apply Permutation_app_head. cbn [app]. apply Permutation_sym, Permutation_middle.
  - assert (Eds : ds' = d_fed y) by (rewrite Ed; destruct m; try reflexivity; exfalso; exact (Nm _ eq_refl)). clear Ed. subst ds'. apply dinv_one; [exact H|exact HI|auto| |apply (v_cons y H)].
    assert (Q : q = f_queue (y_fed (d_sys y) i)) by (destruct m; try exact Eq; exfalso; exact (Nm _ eq_refl)). subst f'. apply (dlocal_by i _ _ _ _ _ _ L); try reflexivity; [exact Q|apply L|exact Er].
Qed.

(** *** The coordinator *)
Lemma quiet_msgs s s' i k : quiet s s' -> (k <= length (r_sent (s i)))%nat -> msgs (skipn k (r_sent (s' i))) = msgs (skipn k (r_sent (s i))).
Proof.
  intros Q Hk. destruct (Q i) as (l & E & M). rewrite E, skipn_app. replace (k - length (r_sent (s i)))%nat with 0%nat by lia. cbn [skipn]. rewrite msgs_app, M. apply app_nil_r.
Qed.
Lemma dinv_quiet y i rest s' : DInv y -> ups rest = ups (f_up (y_fed (d_sys y) i)) -> quiet (y_rti (d_sys y)) s' -> Inv tp start (upd (y_fed (d_sys y)) i (pop (y_fed (d_sys y) i) rest)) s' ->
  DInv (mkDsys (mkSys s' (upd (y_fed (d_sys y)) i (pop (y_fed (d_sys y) i) rest))) (d_fed y)).
Proof.
  intros H Eu Q HI. constructor; cbn [d_sys d_fed y_fed y_rti]; [exact HI| |apply (v_cons y H)]. intros x. pose proof (v_loc y H x) as L. pose proof (l_rcvd _ _ _ _ _ (i_local _ _ _ _ (v_inv y H) x)) as Rc.
  pose proof (quiet_msgs _ _ x _ Q Rc) as Em. destruct (Nat.eq_dec x i) as [->|n]; [rewrite upd_eq|rewrite upd_neq by exact n].
  - apply (dlocal_by i _ _ _ _ _ _ L); try reflexivity; [apply L|cbn [pop f_up]; rewrite Eu; apply L|cbn [pop f_rcvd]; rewrite Em; apply L].
  - apply (dlocal_by x _ _ _ _ _ _ L); try reflexivity; [apply L|apply L|rewrite Em; apply L].
Qed.
Lemma dinv_take_msg y i j t o rest s' v upr ds' : DInv y -> (i < tp_n tp)%nat -> f_up (y_fed (d_sys y) i) = UMsg j t o :: rest -> d_up (d_fed y i) = (j, t, v) :: upr ->
  forward tp start (fun _ => true) (y_rti (d_sys y)) j t = Some s' -> Inv tp start (upd (y_fed (d_sys y)) i (pop (y_fed (d_sys y) i) rest)) s' ->
  ds' = (let d := d_fed y i in let ds1 := upd (d_fed y) i (mkDfed (d_state d) (d_todo d) (d_log d) (d_ev d) upr (d_in d) (d_ext d) (d_trace d)) in
         let e := ds1 j in upd ds1 j (mkDfed (d_state e) (d_todo e) (d_log e) (d_ev e) (d_up e) (d_in e ++ [(t, IMsg i v)]) (d_ext e) (d_trace e))) ->
  DInv (mkDsys (mkSys s' (upd (y_fed (d_sys y)) i (pop (y_fed (d_sys y) i) rest))) ds').
Proof.
  cbn zeta. intros H Hi Eu Ed F HI E. set (ds := d_fed y) in *.
  assert (K : forall x, d_state (ds' x) = d_state (ds x) /\ d_todo (ds' x) = d_todo (ds x) /\ d_log (ds' x) = d_log (ds x) /\ d_ev (ds' x) = d_ev (ds x) /\ d_ext (ds' x) = d_ext (ds x) /\ d_trace (ds' x) = d_trace (ds x) /\
    d_up (ds' x) = (if (x =? i)%nat then upr else d_up (ds x)) /\ d_in (ds' x) = (if (x =? j)%nat then d_in (ds x) ++ [(t, IMsg i v)] else d_in (ds x))).
  { intros x. subst ds'. destruct (Nat.eqb_spec x j) as [Ej|nj].
    - subst x. rewrite upd_eq. destruct (Nat.eqb_spec j i) as [Ei|ni]; [subst j; rewrite upd_eq; auto 10|rewrite upd_neq by exact ni; auto 10].
    - rewrite upd_neq by exact nj. destruct (Nat.eqb_spec x i) as [Ei|ni]; [subst x; rewrite upd_eq; auto 10|rewrite upd_neq by exact ni; auto 10]. }
  clear E. pose proof (quiet_forward _ _ _ _ _ _ (all_connected y j H) F) as Q. constructor; cbn [d_sys d_fed y_fed y_rti]; [exact HI| |].
  - intros x. pose proof (v_loc y H x) as L. pose proof (l_rcvd _ _ _ _ _ (i_local _ _ _ _ (v_inv y H) x)) as Rc. destruct (K x) as (K1 & K2 & K3 & K4 & K5 & K6 & K7 & K8).
    assert (Em : map fst (d_in (ds' x)) = msgs (skipn (f_rcvd (y_fed (d_sys y) x)) (r_sent (s' x)))).
    { rewrite (quiet_msgs _ _ x _ Q) by (destruct (Nat.eq_dec j x) as [<-|n]; [rewrite on_same; cbn [add_sent r_sent]; rewrite app_length; lia|rewrite on_other by exact n; exact Rc]).
      rewrite K8. destruct (Nat.eqb_spec x j) as [Ej|nj].
      - subst x. rewrite on_same. cbn [add_sent r_sent]. rewrite (skip_last tp Hrange) by exact Rc. rewrite map_app, msgs_app. unfold ds. rewrite (dl_in _ _ _ _ L). reflexivity.
      - rewrite on_other by congruence. apply L. }
    destruct (Nat.eqb_spec x i) as [Ei|ni].
    + subst x. rewrite upd_eq. apply (dlocal_by i _ _ _ _ _ _ L); try reflexivity; try assumption; [apply L|]. rewrite K7. cbn [pop f_up]. pose proof (dl_up _ _ _ _ L) as U. fold ds in U. rewrite Ed, Eu in U. cbn [map ups flat_map app] in U. injection U as U. exact U.
    + rewrite upd_neq by exact ni. apply (dlocal_by x _ _ _ _ _ _ L); try reflexivity; try assumption; [apply L|]. rewrite K7. apply L.
  - apply (cons_by ds); [apply (v_cons y H)|]. intros x. exists []. cbn [app]. rewrite (produced_same ds ds') by (intros k; apply K). split; [apply Permutation_refl|].
    assert (T : Permutation (travelling ds x) (up_to i x (j, t, v) ++ travelling ds' x)).
    { apply travelling_less; [exact Hi| |].
      - intros k n. destruct (K k) as (_ & _ & _ & _ & _ & _ & K7 & _). destruct (Nat.eqb_spec k i); [contradiction|exact K7].
      - destruct (K i) as (_ & _ & _ & _ & _ & _ & K7 & _). rewrite Nat.eqb_refl in K7. rewrite K7. exact Ed. }
    destruct (K x) as (_ & _ & _ & K4 & K5 & K6 & _ & K8). unfold rest_of. rewrite K4, K5, K6, K8. do 2 apply Permutation_app_head. unfold up_to in T. cbn [fst snd] in T.
    rewrite (Nat.eqb_sym x j). destruct (Nat.eqb_spec j x) as [Ej|nj].
    + rewrite <- app_assoc. apply Permutation_app_head. rewrite app_assoc. apply Permutation_app_tail. exact T.
    + apply Permutation_app_head, Permutation_app_tail. exact T.
Qed.

Lemma dinv_step y o y' : DInv y -> d_step g tp start y o = Some y' -> DInv y'.
Proof.
  intros H K. unfold d_step in K. destruct (d_allowed tp y o) eqn:A; [|discriminate]. destruct (sys_step tp start (d_sys y) o) as [s'|] eqn:E; [|discriminate]. injection K as <-.
  pose proof (inv_step tp start Htp Hrange Hz Hs (d_sys y) o s' (v_inv y H) E) as HI. unfold d_allowed in A. apply andb_true_iff in A. destruct A as (A1 & A2). apply Nat.ltb_lt in A1.
  destruct o as [i t|i t|i t|i t|i j c|i ltc|i|i|i]; cbn [op_fed] in *; cbn [sys_step] in E; cbn [d_note].
  - destruct (_ && _) eqn:B in E; [|discriminate]. injection E as <-. rewrite !andb_true_iff in B. destruct B as (((B1 & B2) & B3) & B4). apply (dinv_net y i t); [exact H|exact B1| |reflexivity|destruct (f_cur _); [discriminate|reflexivity]|exact HI].
    intros e He. rewrite forallb_forall in A2. apply leb_spec, A2, He.
  - destruct (_ && _) eqn:B in E; [|discriminate]. injection E as <-. destruct (pick t (d_ext (d_fed y i))) as [(v & rest)|] eqn:P; [|discriminate]. apply (dinv_event y i t v rest); [exact H|exact P|reflexivity|exact HI].
  - destruct (_ && _) eqn:B in E; [|discriminate]. injection E as <-. rewrite !andb_true_iff in B. destruct B as ((((B1 & B2) & B3) & B4) & B5). destruct (g_react g i _ t _) as [st todo] eqn:R.
    apply (dinv_start y i t); [exact H|destruct (f_cur _); [discriminate|reflexivity]| | |reflexivity|exact HI|exact R].
    + apply existsb_exists in B3. destruct B3 as (x & Hx & Ex). apply tag_eqb_spec in Ex. subst x. exact Hx.
    + intros e He. rewrite forallb_forall in A2. apply ltb_spec, A2, He.
  - destruct (f_cur (y_fed (d_sys y) i)) as [c|] eqn:Ec in E; [|discriminate]. destruct (_ && _) eqn:B in E; [|discriminate]. injection E as <-. rewrite !andb_true_iff in B. destruct B as ((B1 & B2) & B3). apply ltb_spec in B3.
    destruct (d_todo (d_fed y i)) as [|[t' v|j' c' v] rest] eqn:Td; try discriminate. apply tag_eqb_spec in A2. subst t'. apply (dinv_sched y i t v rest c); [exact H|exact A1|exact Ec|exact B3|exact Td|cbn zeta; rewrite Ec; reflexivity|exact HI].
  - destruct (f_cur (y_fed (d_sys y) i)) as [x|] eqn:Ec in E; [|discriminate]. destruct (_ && _) eqn:B in E; [|discriminate]. injection E as <-.
    destruct (d_todo (d_fed y i)) as [|[t' v|j' c' v] rest] eqn:Td; try discriminate. apply andb_true_iff in A2. destruct A2 as (A2 & A3). apply Nat.eqb_eq in A2. apply Z.eqb_eq in A3. subst j' c'.
    apply (dinv_send y i j c v rest x); [exact H|exact A1|exact Ec|exact Td|reflexivity|exact HI].
  - destruct (f_cur (y_fed (d_sys y) i)) as [x|] eqn:Ec in E; [|discriminate]. destruct (f_alive (y_fed (d_sys y) i)) eqn:B in E; [|discriminate]. injection E as <-. destruct (d_todo (d_fed y i)) eqn:Td; [|discriminate].
    eapply (dinv_complete y i); [exact H|exact Td| |reflexivity|exact HI]. destruct ltc; [rewrite ups_app; apply app_nil_r|reflexivity].
  - discriminate.
  - destruct (f_alive (y_fed (d_sys y) i)) eqn:B in E; [|discriminate]. destruct (nth_error (r_sent (y_rti (d_sys y) i)) (f_rcvd (y_fed (d_sys y) i))) as [m|] eqn:En; [|discriminate].
    destruct m as [t|t|t|t]; injection E as <-; (eapply (dinv_recv y i); [exact H|exact En|reflexivity|reflexivity|exact HI|reflexivity]).
  - destruct (f_up (y_fed (d_sys y) i)) as [|m rest] eqn:Eu in E; [discriminate|]. pose proof (all_connected y i H) as C.
    destruct m as [t|t|t|j t o|]; cbn [rti_step] in E; rewrite ?C in E.
    + injection E as <-. rewrite Eu. apply (dinv_quiet y i rest); [exact H|rewrite Eu; reflexivity|apply quiet_update, quiet_refl|exact HI].
    + injection E as <-. rewrite Eu. apply (dinv_quiet y i (URem t :: rest)); [exact H|rewrite Eu; reflexivity|apply quiet_complete, quiet_refl|exact HI].
    + injection E as <-. rewrite Eu. apply (dinv_quiet y i rest); [exact H|rewrite Eu; reflexivity|apply quiet_same; [apply quiet_refl|reflexivity]|exact HI].
    + destruct (forward _ _ _ _ _ _) as [s1|] eqn:F in E; [|discriminate]. injection E as <-. rewrite Eu. pose proof (dl_up _ _ _ _ (v_loc y H i)) as U. rewrite Eu in U. destruct (d_up (d_fed y i)) as [|((j' & t') & v) upr] eqn:Ed; [discriminate|].
      cbn in U. injection U as -> -> _. rewrite (all_connected y j H). apply (dinv_take_msg y i j t o rest s1 v upr); [exact H|exact A1|exact Eu|exact Ed|exact F|exact HI|reflexivity].
    + exfalso. pose proof (l_up _ _ _ _ _ (i_local _ _ _ _ (v_inv y H) i) UResign) as U. rewrite Eu in U. specialize (U (or_introl eq_refl)). cbn in U. pose proof (dl_alive _ _ _ _ (v_loc y H i)). congruence.
Qed.
Lemma dinv_init : DInv (init_dsys g start).
Proof.
  constructor; cbn [init_dsys d_sys d_fed init_sys y_fed y_rti].
  - apply inv_init; assumption.
  - intros i. constructor; cbn; try reflexivity; try discriminate.
    + intros e _ Se. split; [apply (small_start tp), Se|apply (small_never tp start Hs), Se].
    + intros K. contradiction.
    + constructor.
    + intros e [].
    + intros e [].
  - intros i. unfold produced, rest_of, travelling. cbn [init_dfed d_log d_ext d_ev d_in d_up d_trace flat_map]. apply Permutation_app_head. cbn [app flatten flat_map]. rewrite app_nil_r. apply Permutation_refl.
Qed.
Lemma dinv_run l : forall y y', DInv y -> d_run g tp start y l = Some y' -> DInv y'.
Proof.
  induction l as [|o l IH]; intros y y' H K; cbn [d_run] in K; [injection K as <-; exact H|]. destruct (d_step g tp start y o) as [y1|] eqn:E1; [|discriminate]. eapply IH; [eapply dinv_step; eassumption|exact K].
Qed.

(** ** The order of causes *)
Definition zedge (k i : nat) : Prop := exists d, In (k, d) (tp_up tp i) /\ d < 0.
Definition zpath' (k i : nat) : Prop := exists ds, upstream_path tp (fun _ => true) k ds i /\ forall d, In d ds -> d < 0.
Lemma zedge_acc_from : forall fuel i visited, (i < tp_n tp)%nat -> NoDup visited -> (forall v, In v visited -> (v < tp_n tp)%nat /\ zpath' i v) -> (tp_n tp <= length visited + fuel)%nat -> Acc zedge i.
Proof.
  induction fuel as [|fuel IH]; intros i visited Hi N Hv Hl.
  - exfalso. assert (Ni : ~ In i visited).
    { intros K. destruct (Hv i K) as (_ & ds & P & Q). destruct (Hz i ds P) as (d & Hd & L). specialize (Q d Hd). lia. }
    assert (K : (length (i :: visited) <= length (seq 0 (tp_n tp)))%nat).
    { apply NoDup_incl_length; [constructor; assumption|]. intros v [<-|Hin]; apply in_seq; [lia|]. destruct (Hv v Hin). lia. }
    rewrite seq_length in K. cbn [length] in K. lia.
  - constructor. intros k (d & Hin & Hd).
    assert (Hpath : forall v, In v (i :: visited) -> zpath' k v).
    { intros v [<-|Hv']; [exists [d]; split; [apply path_one; [exact Hin|reflexivity]|intros x [<-|[]]; exact Hd]|]. destruct (Hv v Hv') as (_ & ds & P & Q). exists (d :: ds). split; [eapply path_step; [exact Hin|reflexivity|exact P]|].
      intros x [<-|Hx]; [exact Hd|apply Q, Hx]. }
    apply (IH k (i :: visited)).
    + destruct Htp as (T & _). apply (T i k d Hin).
    + constructor; [|exact N]. intros K. destruct (Hv i K) as (_ & ds & P & Q). destruct (Hz i ds P) as (x & Hx & L). specialize (Q x Hx). lia.
    + intros v Hv'. split; [destruct Hv' as [<-|Hv']; [exact Hi|apply Hv, Hv']|apply Hpath, Hv'].
    + cbn [length]. lia.
Qed.
Lemma zedge_acc i : (i < tp_n tp)%nat -> Acc zedge i.
Proof. intros Hi. apply (zedge_acc_from (tp_n tp) i []); [exact Hi|constructor|intros v []|cbn [length]; lia]. Qed.

Definition tagN (t : tag) : nat := Z.to_nat ((ttime t - start) * two32 + tmicro t).
Lemma tagN_lt t t' : small tp start t' -> small tp start t -> tag_lt t' t -> (tagN t' < tagN t)%nat.
Proof.
  intros (S1 & S2) (S3 & S4) L. unfold tagN. apply Z2Nat.inj_lt; unfold two32, UINT_MAX, tag_lt in *; try lia.
Qed.
Lemma tag_node_ind (P : tag -> nat -> Prop) :
  (forall t i, small tp start t -> (i < tp_n tp)%nat -> (forall t' i', small tp start t' -> (i' < tp_n tp)%nat -> tag_lt t' t -> P t' i') -> (forall k, (k < tp_n tp)%nat -> zedge k i -> P t k) -> P t i) ->
  forall t i, small tp start t -> (i < tp_n tp)%nat -> P t i.
Proof.
  intros Step. assert (K : forall m t, (tagN t < m)%nat -> small tp start t -> forall i, (i < tp_n tp)%nat -> P t i).
  { induction m as [|m IH]; intros t Hm St' i Hi; [lia|]. pose proof (zedge_acc i Hi) as A. induction A as [i _ IHi]. apply Step; [exact St'|exact Hi| |].
    - intros t' i' St2 Hi' L. apply IH; [|exact St2|exact Hi']. pose proof (tagN_lt t t' St2 St' L). lia.
    - intros k Hk Z. apply IHi; assumption. }
  intros t i St' Hi. apply (K (S (tagN t))); [lia|exact St'|exact Hi].
Qed.

(** ** What one execution says *)
Definition done (y : dsys St V) (i : nat) : tag := f_done (y_fed (d_sys y) i).
Definition acts (y : dsys St V) (k : nat) (a : tag) : Prop := active tp start (y_fed (d_sys y)) (y_rti (d_sys y)) k a.
(** Something that may still be executed at or before [t] at [i], or cause it. *)
Definition chain (y : dsys St V) (i : nat) (t : tag) : Prop :=
  exists k a ds, acts y k a /\ ((k = i /\ ds = []) \/ upstream_path tp (fun _ => true) k ds i) /\ tag_le (arriveZ a ds) t.
Definition link (k : nat) (o : tag) (i : nat) (t : tag) : Prop := (k = i /\ tag_lt o t) \/ exists d, In (k, d) (tp_up tp i) /\ tag_le (delayZ o d) t.

Lemma delayZ_ge o d : tag_le o (delayZ o d).
Proof. unfold delayZ. destruct (Z.ltb_spec d 0); [apply tag_le_refl|]. destruct (Z.eqb_spec d 0); tg; lia. Qed.
Lemma delayZ_gt o d : 0 <= d -> tag_lt o (delayZ o d).
Proof. intros H. unfold delayZ. replace (d <? 0) with false by lia. destruct (Z.eqb_spec d 0); tg; lia. Qed.
Lemma link_less k o i t : link k o i t -> tag_lt o t \/ (o = t /\ zedge k i).
Proof.
  intros [(_ & L)|(d & Hin & L)]; [left; exact L|]. destruct (Z.lt_ge_cases d 0) as [Hd|Hd].
  - unfold delayZ in L. replace (d <? 0) with true in L by lia. apply tag_le_lt_or_eq in L. destruct L as [L|L]; [left; exact L|right]. split; [exact L|]. exists d. auto.
  - left. eapply tag_lt_le_trans; [apply delayZ_gt, Hd|exact L].
Qed.
Lemma link_chain y k o i t : link k o i t -> chain y k o -> chain y i t.
Proof.
  intros Lk (k0 & a & ds & A & P & L). destruct Lk as [(-> & Lt)|(d & Hin & Le)].
  - exists k0, a, ds. split; [exact A|]. split; [exact P|]. eapply tag_le_trans; [exact L|apply tag_lt_le, Lt].
  - exists k0, a, (ds ++ [d]). split; [exact A|]. split.
    + right. destruct P as [(-> & ->)|P]; [apply path_one; [exact Hin|reflexivity]|]. eapply path_trans; [exact P|]. apply path_one; [exact Hin|reflexivity].
    + rewrite arriveZ_app. eapply tag_le_trans; [apply delayZ_mono, L|exact Le].
Qed.
Lemma edge_blocks y k o i d t : DInv y -> chain y k o -> In (k, d) (tp_up tp i) -> tag_le (delayZ o d) t -> small tp start t -> tag_lt (done y i) t.
Proof.
  intros H (k0 & a & ds & A & P & L) Hin Le Sm. assert (Hne : tp_up tp i <> []) by (intros K; rewrite K in Hin; destruct Hin).
  assert (P' : upstream_path tp (fun _ => true) k0 (ds ++ [d]) i).
  { destruct P as [(-> & ->)|P]; [apply path_one; [exact Hin|reflexivity]|]. eapply path_trans; [exact P|]. apply path_one; [exact Hin|reflexivity]. }
  assert (L' : tag_le (arriveZ a (ds ++ [d])) t) by (rewrite arriveZ_app; eapply tag_le_trans; [apply delayZ_mono, L|exact Le]).
  destruct (completed_granted tp start _ _ i (v_inv y H) Hne) as (G & _). eapply tag_le_lt_trans; [exact G|]. eapply tag_lt_le_trans; [|exact L'].
  apply (i_safe _ _ _ _ (v_inv y H) k0 (ds ++ [d]) i a).
  - split; [apply all_connected, H|]. eapply path_incl; [|exact P']. intros x _. apply all_connected, H.
  - exact A.
  - apply tag_le_time in L'. destruct Sm. lia.
Qed.
Definition blocked (y : dsys St V) (k : nat) (o : tag) : Prop := tag_le (done y k) o /\ chain y k o.
Lemma link_blocks y k o i t : DInv y -> small tp start t -> link k o i t -> blocked y k o -> tag_lt (done y i) t.
Proof.
  intros H Sm [(-> & Lt)|(d & Hin & Le)] (B1 & B2); [eapply tag_le_lt_trans; eassumption|]. eapply edge_blocks; eassumption.
Qed.

Definition open_of (y : dsys St V) (i : nat) : list (tag * input V) := map ext_in (d_ext (d_fed y i)) ++ d_ev (d_fed y i) ++ d_in (d_fed y i) ++ travelling (d_fed y) i.
Lemma rest_open y i : rest_of (d_fed y) i = open_of y i ++ flatten (d_trace (d_fed y i)).
Proof. unfold rest_of, open_of. rewrite <- !app_assoc. reflexivity. Qed.
Lemma open_chain y i t x : DInv y -> small tp start t -> In (t, x) (open_of y i) -> tag_lt (done y i) t /\ chain y i t.
Proof.
  intros H Sm Hin. pose proof (v_loc y H i) as L. pose proof (i_local _ _ _ _ (v_inv y H) i) as LI. assert (Own : tag_lt (done y i) t -> lact tp start (y_fed (d_sys y) i) (y_rti (d_sys y) i) t -> tag_lt (done y i) t /\ chain y i t).
  { intros K1 K2. split; [exact K1|]. exists i, t, []. split; [left; exact K2|]. split; [left; auto|apply tag_le_refl]. }
  unfold open_of in Hin. apply in_app_or in Hin. destruct Hin as [Hin|Hin]; [|apply in_app_or in Hin; destruct Hin as [Hin|Hin]; [|apply in_app_or in Hin; destruct Hin as [Hin|Hin]]].
  - apply in_map_iff in Hin. destruct Hin as (e & Ee & He). injection Ee as Et _. subst t. destruct (dl_ext _ _ _ _ L e He Sm) as (K1 & K2). apply Own; [exact K2|]. split; [apply L|right; right; left; auto].
  - assert (Q : In t (f_queue (y_fed (d_sys y) i))) by (rewrite (dl_queue _ _ _ _ L); apply (in_map fst) in Hin; exact Hin). apply Own; [apply (l_queue _ _ _ _ _ LI); [apply L|exact Q]|]. split; [apply L|auto].
  - assert (Q : pend (y_fed (d_sys y) i) (y_rti (d_sys y) i) t) by (unfold pend; apply msgs_in; rewrite <- (dl_in _ _ _ _ L); apply (in_map fst) in Hin; exact Hin).
    apply Own; [apply (l_pend _ _ _ _ _ LI); [apply L|exact Q]|]. split; [apply L|right; right; right; exact Q].
  - unfold travelling in Hin. apply in_flat_map in Hin. destruct Hin as (k & Hk & Hin). apply in_flat_map in Hin. destruct Hin as (((j & t') & v) & Hu & Hin). unfold up_to in Hin. cbn [fst snd] in Hin.
    destruct (Nat.eqb_spec j i) as [Ej|n]; [|destruct Hin]. destruct Hin as [Ei|[]]. injection Ei as Et _. subst j t'.
    pose proof (v_loc y H k) as Lk. pose proof (i_local _ _ _ _ (v_inv y H) k) as LIk. apply (in_map fst) in Hu. rewrite (dl_up _ _ _ _ Lk) in Hu. cbn [fst] in Hu. apply ups_in in Hu. destruct Hu as (o & Hu).
    destruct (l_up _ _ _ _ _ LIk _ Hu) as (_ & _ & d & Hd & Le).
    assert (Ck : chain y k o). { exists k, o, []. split; [right; apply in_split in Hu; destruct Hu as (l1 & l2 & Hu); exists l1, i, t, l2; exact Hu|]. split; [left; auto|apply tag_le_refl]. }
    split; [eapply edge_blocks; eassumption|]. eapply link_chain; [right; eauto|exact Ck].
Qed.
Lemma produced_chain y i t x : DInv y -> small tp start t -> In (t, x) (produced (d_fed y) i) -> tag_lt (done y i) t -> chain y i t.
Proof.
  intros H Sm Hin Lt. apply (Permutation_in _ (v_cons y H i)) in Hin. rewrite rest_open in Hin. apply in_app_or in Hin. destruct Hin as [Hin|Hin]; [apply (open_chain y i t x H Sm Hin)|].
  exfalso. apply flatten_in in Hin. destruct Hin as (xs & Hin & _). destruct (dl_trace _ _ _ _ (v_loc y H i) _ Hin) as (_ & _ & K). apply (tag_lt_irrefl t). eapply tag_le_lt_trans; [exact K|exact Lt].
Qed.
Lemma produced_consumed y i t : DInv y -> small tp start t -> tag_le t (done y i) -> Permutation (at_tag t (produced (d_fed y) i)) (at_tag t (flatten (d_trace (d_fed y i)))).
Proof.
  intros H Sm Le. eapply perm_trans; [apply perm_filter, (v_cons y H i)|]. fold (at_tag t (rest_of (d_fed y) i)). rewrite rest_open, at_tag_app. replace (at_tag t (open_of y i)) with (@nil (tag * input V)); [apply Permutation_refl|].
  symmetry. apply filter_no. intros (t' & x) Hin. cbn [fst]. destruct (tag_eqb t t') eqn:E; [|reflexivity]. apply tag_eqb_spec in E. subst t'. destruct (open_chain y i t x H Sm Hin) as (K & _). exfalso. apply (tag_lt_irrefl t). eapply tag_le_lt_trans; eassumption.
Qed.

(** *** Effects *)
Definition effs (y : dsys St V) (k : nat) : list (tag * effect V) := d_log (d_fed y k) ++ map (pair (done y k)) (d_todo (d_fed y k)).
Lemma effs_replay y k : DInv y -> effs y k = snd (replay k (g_init g k) (d_trace (d_fed y k))).
Proof. intros H. rewrite (dl_replay _ _ _ _ (v_loc y H k)). reflexivity. Qed.
Lemma replay_origin i l : forall st o e, In (o, e) (snd (replay i st l)) -> exists xs, In (o, xs) l.
Proof.
  induction l as [|(t & xs) l IH]; intros st o e Hin; [destruct Hin|]. cbn [replay] in Hin. destruct (g_react g i st t xs) as [st1 es]. destruct (replay i st1 l) as [st2 r] eqn:R. cbn [snd] in Hin. apply in_app_or in Hin. destruct Hin as [Hin|Hin].
  - apply in_map_iff in Hin. destruct Hin as (x & Ex & _). injection Ex as -> _. exists xs. now left.
  - destruct (IH st1 o e) as (xs' & K); [rewrite R; exact Hin|]. exists xs'. now right.
Qed.
Lemma replay_upto i o l : increasing l -> forall st, upto o (snd (replay i st l)) = snd (replay i st (upto o l)).
Proof.
  intros H. induction H as [|(t & xs) l H IH F]; intros st; [reflexivity|]. unfold upto at 2. cbn [filter fst]. destruct (tag_leb t o) eqn:E.
  - cbn [replay]. fold (upto o l). destruct (g_react g i st t xs) as [st1 es]. specialize (IH st1). destruct (replay i st1 l) as [st2 r]. destruct (replay i st1 (upto o l)) as [st3 r']. cbn [snd] in *. rewrite upto_app, IH. f_equal.
    apply upto_all. intros x Hx. apply in_map_iff in Hx. destruct Hx as (y & <- & _). apply leb_spec, E.
  - fold (upto o l). assert (Late : forall e, In e ((t, xs) :: l) -> tag_lt o (fst e)).
    { assert (K : tag_lt o t) by (destruct (tag_le_total t o) as [K|K]; [apply leb_spec in K; congruence|exact K]). intros e [<-|He]; [exact K|]. rewrite Forall_forall in F. eapply tag_lt_trans; [exact K|apply F, He]. }
    rewrite (upto_none o l) by (intros x Hx; apply Late; now right). transitivity (@nil (tag * effect V)); [|reflexivity]. apply upto_none. intros (o' & e) Hin. apply replay_origin in Hin. destruct Hin as (xs' & Hin). apply (Late _ Hin).
Qed.
Lemma effs_log y k o : DInv y -> upto o (effs y k) = upto o (d_log (d_fed y k)) \/ blocked y k o.
Proof.
  intros H. unfold effs. rewrite upto_app. destruct (d_todo (d_fed y k)) as [|e l] eqn:Td; [left; cbn [map upto filter]; apply app_nil_r|]. destruct (tag_le_total (done y k) o) as [Le|Lt].
  - right. split; [exact Le|]. exists k, (done y k), []. split; [|split; [left; auto|exact Le]]. left. split; [apply (v_loc y H k)|]. right. left. apply (dl_todo _ _ _ _ (v_loc y H k)). rewrite Td. discriminate.
  - left. rewrite (upto_none o (map _ _)); [apply app_nil_r|]. intros x Hx. apply in_map_iff in Hx. destruct Hx as (z & <- & _). exact Lt.
Qed.
Lemma log_trace y k o e : DInv y -> In (o, e) (d_log (d_fed y k)) -> exists xs, In (o, xs) (d_trace (d_fed y k)).
Proof. intros H Hin. apply (replay_origin k _ (g_init g k) o e). rewrite <- effs_replay by exact H. apply in_or_app. now left. Qed.
Lemma out_link k i o e t x : good_eff k (o, e) -> In (t, x) (out k i (o, e)) -> link k o i t.
Proof.
  intros (Sm & G) Hin. unfold out in Hin. cbn [fst snd] in *. destruct e as [t' v|j c v].
  - destruct (Nat.eqb_spec k i) as [Ek|n]; [|destruct Hin]. destruct Hin as [Ei|[]]. injection Ei as Et _. subst. left. auto.
  - destruct (Nat.eqb_spec j i) as [Ej|n]; [|destruct Hin]. destruct Hin as [Ei|[]]. injection Ei as Et _. subst. right. apply G.
Qed.

(** ** Two executions *)
Hypothesis Hfree : order_free g.
Lemma replay_same i l1 l2 : Forall2 same l1 l2 -> forall st, replay i st l1 = replay i st l2.
Proof.
  intros H. induction H as [|(t1 & x1) (t2 & x2) l1 l2 (E1 & E2) H IH]; intros st; [reflexivity|]. cbn [fst snd] in *. subst t2. cbn [replay]. rewrite (Hfree i st t1 x1 x2 E2). destruct (g_react g i st t1 x2) as [st1 es]. rewrite IH. reflexivity.
Qed.

Definition follows (a b : dsys St V) (t : tag) (i : nat) : Prop := (exists xs, In (t, xs) (d_trace (d_fed a i))) -> tag_lt (done b i) t -> chain b i t.
Definition agrees (a b : dsys St V) (t : tag) (i : nat) : Prop := tag_le t (done a i) -> tag_le t (done b i) -> at_tag t (produced (d_fed a) i) = at_tag t (produced (d_fed b) i).

Lemma entries_agree a b k o : DInv a -> DInv b -> (forall t, small tp start t -> tag_le t o -> agrees a b t k) -> tag_le o (done a k) -> tag_le o (done b k) ->
  Forall2 same (upto o (d_trace (d_fed a k))) (upto o (d_trace (d_fed b k))).
Proof.
  intros Ha Hb Ag La Lb. pose proof (v_loc a Ha k) as LA. pose proof (v_loc b Hb k) as LB. apply histories_agree.
  - apply increasing_upto, LA.
  - apply increasing_upto, LB.
  - intros e He. apply upto_in in He. apply (dl_trace _ _ _ _ LA e), He.
  - intros e He. apply upto_in in He. apply (dl_trace _ _ _ _ LB e), He.
  - intros t Ht. assert (K : small tp start t /\ tag_le t o).
    { rewrite map_app in Ht. apply in_app_or in Ht. destruct Ht as [Ht|Ht]; apply in_map_iff in Ht; destruct Ht as (e & <- & He); apply upto_in in He; destruct He as (He & Le); (split; [|exact Le]); [apply (dl_trace _ _ _ _ LA e), He|apply (dl_trace _ _ _ _ LB e), He]. }
    destruct K as (Sm & Le). rewrite !upto_flatten by exact Le.
    eapply perm_trans; [apply Permutation_sym, produced_consumed; [exact Ha|exact Sm|eapply tag_le_trans; eassumption]|]. rewrite (Ag t Sm Le) by (eapply tag_le_trans; eassumption). apply produced_consumed; [exact Hb|exact Sm|eapply tag_le_trans; eassumption].
Qed.
Lemma effs_agree a b k o : DInv a -> DInv b -> (forall t, small tp start t -> tag_le t o -> agrees a b t k) -> tag_le o (done a k) -> tag_le o (done b k) -> upto o (effs a k) = upto o (effs b k).
Proof.
  intros Ha Hb Ag La Lb. rewrite !effs_replay by assumption. rewrite !replay_upto by (apply (v_loc a Ha) || apply (v_loc b Hb)). f_equal. apply replay_same. apply entries_agree; assumption.
Qed.

Section Step2.
Variables a b : dsys St V.
Hypothesis Ha : DInv a.
Hypothesis Hb : DInv b.
Variable t : tag.
Variable i : nat.
Hypothesis Sm : small tp start t.
Definition before (o : tag) (k : nat) : Prop := tag_lt o t \/ (o = t /\ zedge k i).
Hypothesis IHab : forall o k, small tp start o -> (k < tp_n tp)%nat -> before o k -> follows a b o k.
Hypothesis IHba : forall o k, small tp start o -> (k < tp_n tp)%nat -> before o k -> follows b a o k.
Hypothesis IHeq : forall o k, small tp start o -> (k < tp_n tp)%nat -> before o k -> agrees a b o k.

Lemma agrees_upto o k : small tp start o -> (k < tp_n tp)%nat -> before o k -> forall t', small tp start t' -> tag_le t' o -> agrees a b t' k.
Proof.
  intros So Hk B t' St' Le. apply tag_le_lt_or_eq in Le. destruct Le as [Lt| ->]; [|apply IHeq; assumption]. apply IHeq; [exact St'|exact Hk|]. left. destruct B as [B|(-> & _)]; [eapply tag_lt_trans; eassumption|exact Lt].
Qed.

(** What [a] did, [b] did too, unless something before holds it up. *)
Lemma carried k o e x : (k < tp_n tp)%nat -> In (o, e) (d_log (d_fed a k)) -> In (t, x) (out k i (o, e)) -> In (o, e) (d_log (d_fed b k)) \/ chain b i t.
Proof.
  intros Hk Hin Hout. pose proof (dl_good _ _ _ _ (v_loc a Ha k) _ Hin) as G. pose proof (out_link _ _ _ _ _ _ G Hout) as Lk. pose proof (link_less _ _ _ _ Lk) as B. pose proof (proj1 G) as So. cbn [fst] in So.
  destruct (log_trace a k o e Ha Hin) as (xs & Htr). destruct (dl_trace _ _ _ _ (v_loc a Ha k) _ Htr) as (_ & _ & La). cbn [fst] in La. fold (done a k) in La.
  destruct (tag_le_total o (done b k)) as [Lb|Lb].
  - destruct (effs_log b k o Hb) as [Eb|(_ & Cb)]; [|right; eapply link_chain; eassumption]. left. pose proof (effs_agree a b k o Ha Hb (agrees_upto o k So Hk B) La Lb) as E.
    assert (K : In (o, e) (upto o (effs a k))) by (apply upto_in; split; [apply in_or_app; now left|apply tag_le_refl]). rewrite E, Eb in K. apply upto_in in K. apply K.
  - right. eapply link_chain; [exact Lk|]. apply (IHab o k So Hk B); [exists xs; exact Htr|exact Lb].
Qed.
Lemma follows_step : follows a b t i.
Proof.
  intros (xs & Htr) Lt. destruct (dl_trace _ _ _ _ (v_loc a Ha i) _ Htr) as (Ne & _ & _). cbn [snd] in Ne. destruct xs as [|x xs]; [congruence|].
  assert (P : In (t, x) (produced (d_fed a) i)).
  { apply (Permutation_in _ (Permutation_sym (v_cons a Ha i))). rewrite rest_open. apply in_or_app. right. apply flatten_in. exists (x :: xs). split; [exact Htr|now left]. }
  unfold produced in P. apply in_app_or in P. destruct P as [P|P].
  - apply (produced_chain b i t x Hb Sm); [|exact Lt]. unfold produced. apply in_or_app. now left.
  - apply in_flat_map in P. destruct P as (k & Hk & P). apply in_flat_map in P. destruct P as ((o & e) & Hin & Hout). apply in_seq in Hk as Hk'. destruct (carried k o e x) as [K|K]; [lia|exact Hin|exact Hout| |exact K].
    apply (produced_chain b i t x Hb Sm); [|exact Lt]. unfold produced. apply in_or_app. right. apply in_flat_map. exists k. split; [exact Hk|]. apply in_flat_map. exists (o, e). auto.
Qed.
End Step2.

Lemma max_tag (l : list tag) : l <> [] -> exists m, In m l /\ forall x, In x l -> tag_le x m.
Proof.
  induction l as [|y l IH]; intros H; [congruence|]. destruct l as [|z l]; [exists y; split; [now left|intros x [<-|[]]; apply tag_le_refl]|].
  destruct IH as (m & Hm & Hl); [discriminate|]. destruct (tag_le_total y m) as [K|K].
  - exists m. split; [now right|]. intros x [<-|Hx]; [exact K|apply Hl, Hx].
  - exists y. split; [now left|]. intros x [<-|Hx]; [apply tag_le_refl|]. apply tag_lt_le. eapply tag_le_lt_trans; [apply Hl, Hx|exact K].
Qed.

Section Step3.
Variables a b : dsys St V.
Hypothesis Ha : DInv a.
Hypothesis Hb : DInv b.
Variable t : tag.
Variable i : nat.
Hypothesis Sm : small tp start t.
Hypothesis IHab : forall o k, small tp start o -> (k < tp_n tp)%nat -> before t i o k -> follows a b o k.
Hypothesis IHba : forall o k, small tp start o -> (k < tp_n tp)%nat -> before t i o k -> follows b a o k.
Hypothesis IHeq : forall o k, small tp start o -> (k < tp_n tp)%nat -> before t i o k -> agrees a b o k.
Hypothesis La : tag_le t (done a i).
Hypothesis Lb : tag_le t (done b i).

Lemma logs_complete k o e : (k < tp_n tp)%nat -> In (o, e) (d_log (d_fed a k)) \/ In (o, e) (d_log (d_fed b k)) -> at_tag t (out k i (o, e)) <> [] -> upto o (d_log (d_fed a k)) = upto o (d_log (d_fed b k)).
Proof.
  intros Hk Hin Hne. assert (Hout : exists x, In (t, x) (out k i (o, e))).
  { destruct (at_tag t (out k i (o, e))) as [|(t' & x) l] eqn:E; [congruence|]. exists x. assert (K : In (t', x) (at_tag t (out k i (o, e)))) by (rewrite E; now left). apply at_tag_in in K. destruct K as (K1 & K2). cbn [fst] in K2. subst t'. exact K1. }
  destruct Hout as (x & Hout). assert (G : good_eff k (o, e)) by (destruct Hin as [Hin|Hin]; [apply (dl_good _ _ _ _ (v_loc a Ha k) _ Hin)|apply (dl_good _ _ _ _ (v_loc b Hb k) _ Hin)]).
  pose proof (out_link _ _ _ _ _ _ G Hout) as Lk. pose proof (link_less _ _ _ _ Lk) as B. pose proof (proj1 G) as So. cbn [fst] in So.
  assert (NBa : ~ blocked a k o) by (intros K; apply (link_blocks a k o i t Ha Sm Lk) in K; apply (tag_lt_irrefl t); eapply tag_le_lt_trans; [exact La|exact K]).
  assert (NBb : ~ blocked b k o) by (intros K; apply (link_blocks b k o i t Hb Sm Lk) in K; apply (tag_lt_irrefl t); eapply tag_le_lt_trans; [exact Lb|exact K]).
  assert (P : tag_le o (done a k) /\ tag_le o (done b k)).
  { destruct Hin as [Hin|Hin].
    - destruct (log_trace a k o e Ha Hin) as (xs & Htr). destruct (dl_trace _ _ _ _ (v_loc a Ha k) _ Htr) as (_ & _ & K). split; [exact K|]. destruct (tag_le_total o (done b k)) as [K2|K2]; [exact K2|]. exfalso. apply NBb. split; [apply tag_lt_le, K2|]. apply (IHab o k So Hk B); [exists xs; exact Htr|exact K2].
    - destruct (log_trace b k o e Hb Hin) as (xs & Htr). destruct (dl_trace _ _ _ _ (v_loc b Hb k) _ Htr) as (_ & _ & K). split; [|exact K]. destruct (tag_le_total o (done a k)) as [K2|K2]; [exact K2|]. exfalso. apply NBa. split; [apply tag_lt_le, K2|]. apply (IHba o k So Hk B); [exists xs; exact Htr|exact K2]. }
  destruct P as (Pa & Pb). destruct (effs_log a k o Ha) as [Ea|Ba]; [|contradiction]. destruct (effs_log b k o Hb) as [Eb|Bb]; [|contradiction]. rewrite <- Ea, <- Eb. apply effs_agree; try assumption. apply (agrees_upto a b t i IHeq o k); assumption.
Qed.
Definition contributes (k : nat) (oe : tag * effect V) : bool := match at_tag t (out k i oe) with [] => false | _ => true end.
Lemma contribution k l : at_tag t (flat_map (out k i) l) = flat_map (fun oe => at_tag t (out k i oe)) (filter (contributes k) l).
Proof.
  unfold at_tag at 1. rewrite filter_flat_map. induction l as [|oe l IH]; [reflexivity|]. cbn [flat_map filter]. rewrite IH. unfold contributes at 2. fold (at_tag t (out k i oe)). destruct (at_tag t (out k i oe)) eqn:E; [reflexivity|]. cbn [flat_map]. rewrite E. reflexivity.
Qed.
Lemma contributions k : (k < tp_n tp)%nat -> filter (contributes k) (d_log (d_fed a k)) = filter (contributes k) (d_log (d_fed b k)).
Proof.
  intros Hk. set (ca := filter (contributes k) (d_log (d_fed a k))). set (cb := filter (contributes k) (d_log (d_fed b k))).
  assert (D : map fst (ca ++ cb) = [] \/ map fst (ca ++ cb) <> []) by (destruct (map fst (ca ++ cb)); [now left|right; discriminate]).
  destruct D as [D|D]; [apply map_eq_nil, app_eq_nil in D; destruct D as (-> & ->); reflexivity|]. destruct (max_tag _ D) as (m & Hm & Hmax).
  assert (Em : upto m (d_log (d_fed a k)) = upto m (d_log (d_fed b k))).
  { apply in_map_iff in Hm. destruct Hm as ((o & e) & Eo & Hm). cbn [fst] in Eo. subst o. assert (K : (In (m, e) (d_log (d_fed a k)) \/ In (m, e) (d_log (d_fed b k))) /\ contributes k (m, e) = true) by (apply in_app_or in Hm; destruct Hm as [Hm|Hm]; apply filter_In in Hm; tauto).
    destruct K as (K1 & K2). apply (logs_complete k m e Hk K1). unfold contributes in K2. intros E. rewrite E in K2. discriminate. }
  transitivity (filter (contributes k) (upto m (d_log (d_fed a k)))); [|rewrite Em]; [symmetry|]; apply filter_filter_imp.
  - intros x Hx Cx. apply leb_spec, Hmax. apply in_map, in_or_app. left. apply filter_In. auto.
  - intros x Hx Cx. apply leb_spec, Hmax. apply in_map, in_or_app. right. apply filter_In. auto.
Qed.
Lemma agrees_step : at_tag t (produced (d_fed a) i) = at_tag t (produced (d_fed b) i).
Proof.
  unfold produced. rewrite !at_tag_app. f_equal. unfold at_tag. rewrite !filter_flat_map. apply flat_map_in_ext. intros k Hk. apply in_seq in Hk.
  fold (at_tag t (flat_map (out k i) (d_log (d_fed a k)))) (at_tag t (flat_map (out k i) (d_log (d_fed b k)))). rewrite !contribution, contributions by lia. reflexivity.
Qed.
End Step3.

Lemma main a b : DInv a -> DInv b -> forall t i, small tp start t -> (i < tp_n tp)%nat -> follows a b t i /\ follows b a t i /\ agrees a b t i.
Proof.
  intros Ha Hb. apply tag_node_ind. intros t i Sm Hi IHt IHz.
  assert (IH : forall o k, small tp start o -> (k < tp_n tp)%nat -> before t i o k -> follows a b o k /\ follows b a o k /\ agrees a b o k) by (intros o k So Hk [B|(-> & B)]; [apply IHt; assumption|apply IHz; assumption]).
  assert (Sym : forall o k, agrees a b o k -> agrees b a o k) by (intros o k K L1 L2; symmetry; apply K; assumption).
  split; [|split].
  - apply (follows_step a b Ha Hb t i Sm); intros o k So Hk B; destruct (IH o k So Hk B) as (F1 & F2 & F3); auto.
  - apply (follows_step b a Hb Ha t i Sm); intros o k So Hk B; destruct (IH o k So Hk B) as (F1 & F2 & F3); auto.
  - intros La Lb. apply (agrees_step a b Ha Hb t i Sm); try assumption; intros o k So Hk B; destruct (IH o k So Hk B) as (F1 & F2 & F3); auto.
Qed.

(** *** Prefixes *)
Lemma Forall2_len {A B} (R : A -> B -> Prop) l1 l2 : Forall2 R l1 l2 -> length l1 = length l2.
Proof. intros H. induction H; cbn; congruence. Qed.
Lemma trace_upto a i : DInv a -> forall o, tag_le (done a i) o -> upto o (d_trace (d_fed a i)) = d_trace (d_fed a i).
Proof. intros Ha o Le. apply upto_all. intros e He. eapply tag_le_trans; [|exact Le]. apply (dl_trace _ _ _ _ (v_loc a Ha i) e He). Qed.
Lemma ordered a b i : DInv a -> DInv b -> (i < tp_n tp)%nat -> tag_le (done a i) (done b i) -> begins (d_trace (d_fed a i)) (d_trace (d_fed b i)).
Proof.
  intros Ha Hb Hi Le. assert (E : Forall2 same (upto (done a i) (d_trace (d_fed a i))) (upto (done a i) (d_trace (d_fed b i)))).
  { apply entries_agree; try assumption; [|apply tag_le_refl]. intros t Sm _. apply (main a b Ha Hb t i Sm Hi). }
  rewrite (trace_upto a i Ha) in E by apply tag_le_refl. unfold begins. rewrite (Forall2_len _ _ _ E). rewrite upto_firstn in E by apply (v_loc b Hb i). exact E.
Qed.
Lemma replay_app i l1 l2 : forall st, replay i st (l1 ++ l2) = let (st1, e1) := replay i st l1 in let (st2, e2) := replay i st1 l2 in (st2, e1 ++ e2).
Proof.
  induction l1 as [|(t & xs) l1 IH]; intros st; cbn [app replay]; [destruct (replay i st l2); reflexivity|]. destruct (g_react g i st t xs) as [st1 es]. rewrite IH. destruct (replay i st1 l1) as [st2 e1]. destruct (replay i st2 l2) as [st3 e2]. rewrite app_assoc. reflexivity.
Qed.
Lemma begins_effs a b i : DInv a -> DInv b -> begins (d_trace (d_fed a i)) (d_trace (d_fed b i)) -> exists r, effs b i = effs a i ++ r.
Proof.
  intros Ha Hb H. rewrite !effs_replay by assumption. rewrite <- (firstn_skipn (length (d_trace (d_fed a i))) (d_trace (d_fed b i))), replay_app. rewrite (replay_same i _ _ H). destruct (replay i (g_init g i) (firstn _ _)) as [st1 e1]. destruct (replay i st1 _) as [st2 e2]. cbn [snd]. exists e2. reflexivity.
Qed.
Lemma prefix_total {A} (l1 l2 r1 r2 : list A) : l1 ++ r1 = l2 ++ r2 -> comparable l1 l2.
Proof.
  revert l2. induction l1 as [|x l1 IH]; intros l2 E; [left; exists l2; reflexivity|]. destruct l2 as [|y l2]; [right; exists (x :: l1); reflexivity|]. cbn [app] in E. assert (Ex : x = y) by congruence. assert (El : l1 ++ r1 = l2 ++ r2) by congruence. subst y. destruct (IH _ El) as [(r & ->)|(r & ->)]; [left|right]; exists r; reflexivity.
Qed.
Lemma begins_logs a b i : DInv a -> DInv b -> begins (d_trace (d_fed a i)) (d_trace (d_fed b i)) -> comparable (d_log (d_fed a i)) (d_log (d_fed b i)).
Proof.
  intros Ha Hb H. destruct (begins_effs a b i Ha Hb H) as (r & E). unfold effs in E. rewrite <- app_assoc in E. symmetry in E. eapply prefix_total, E.
Qed.
Lemma begins_state a b i : DInv a -> DInv b -> begins (d_trace (d_fed a i)) (d_trace (d_fed b i)) -> length (d_trace (d_fed b i)) = length (d_trace (d_fed a i)) -> d_state (d_fed a i) = d_state (d_fed b i).
Proof.
  intros Ha Hb H L. unfold begins in H. rewrite firstn_all2 in H by lia. pose proof (replay_same i _ _ H (g_init g i)) as E. rewrite (dl_replay _ _ _ _ (v_loc a Ha i)), (dl_replay _ _ _ _ (v_loc b Hb i)) in E. congruence.
Qed.

Lemma replay_run i l : forall st, replay i st l = run_program g i st l.
Proof. induction l as [|(t & xs) l IH]; intros st; [reflexivity|]. cbn [replay run_program]. destruct (g_react g i st t xs) as [st1 es]. rewrite IH. reflexivity. Qed.
Lemma obeys y i : DInv y -> run_program g i (g_init g i) (d_trace (d_fed y i)) = (d_state (d_fed y i), d_log (d_fed y i) ++ map (pair (done y i)) (d_todo (d_fed y i))) /\ (d_todo (d_fed y i) <> [] -> f_cur (y_fed (d_sys y) i) = Some (done y i)).
Proof. intros H. rewrite <- replay_run. split; apply (v_loc y H i). Qed.

(** *** Inputs *)
Lemma flatten_present t (l : list (tag * list (input V))) : map snd (at_tag t (flatten l)) = present t l.
Proof.
  unfold present, flatten, at_tag. induction l as [|(t' & xs) l IH]; [reflexivity|]. cbn [flat_map filter fst snd]. rewrite filter_app, map_app, IH. destruct (tag_eqb t t') eqn:E.
  - cbn [flat_map snd]. f_equal. induction xs as [|x xs IHx]; [reflexivity|]. cbn [map filter fst]. rewrite E. cbn [map snd]. f_equal. exact IHx.
  - rewrite filter_no; [reflexivity|]. intros e He. apply in_map_iff in He. destruct He as (x & <- & _). exact E.
Qed.
Lemma inputs_seen y i t : DInv y -> small tp start t -> tag_le t (done y i) -> Permutation (map snd (at_tag t (inputs_for g tp y i))) (present t (d_trace (d_fed y i))).
Proof. intros H Sm Le. rewrite <- flatten_present. apply Permutation_map. apply (produced_consumed y i t H Sm Le). Qed.

(** *** Finished executions *)
Section Finished.
Variables a b : dsys St V.
Hypothesis Ha : DInv a.
Hypothesis Hb : DInv b.
Hypothesis Fa : finished tp a.
Hypothesis Fb : finished tp b.
Lemma finished_rest y i : DInv y -> finished tp y -> (i < tp_n tp)%nat -> Permutation (produced (d_fed y) i) (flatten (d_trace (d_fed y i))).
Proof.
  intros H F Hi. eapply perm_trans; [apply (v_cons y H i)|]. unfold rest_of. destruct (F i Hi) as (-> & -> & _ & -> & _). cbn [map app]. replace (travelling (d_fed y) i) with (@nil (tag * input V)); [apply Permutation_refl|].
  unfold travelling. symmetry. transitivity (flat_map (fun _ => @nil (tag * input V)) (seq 0 (tp_n tp))); [|induction (seq 0 (tp_n tp)); auto]. apply flat_map_in_ext. intros k Hk. apply in_seq in Hk. destruct (F k) as (_ & _ & -> & _); [lia|reflexivity].
Qed.
Lemma finished_effs y k : finished tp y -> (k < tp_n tp)%nat -> effs y k = d_log (d_fed y k).
Proof. intros F Hk. unfold effs. destruct (F k Hk) as (_ & _ & _ & _ & ->). apply app_nil_r. Qed.
Definition alike (t : tag) (i : nat) : Prop := at_tag t (produced (d_fed a) i) = at_tag t (produced (d_fed b) i).
Lemma alike_entries k o : (k < tp_n tp)%nat -> (forall t, small tp start t -> tag_le t o -> alike t k) -> Forall2 same (upto o (d_trace (d_fed a k))) (upto o (d_trace (d_fed b k))).
Proof.
  intros Hk Ag. pose proof (v_loc a Ha k) as LA. pose proof (v_loc b Hb k) as LB. apply histories_agree.
  - apply increasing_upto, LA.
  - apply increasing_upto, LB.
  - intros e He. apply upto_in in He. apply (dl_trace _ _ _ _ LA e), He.
  - intros e He. apply upto_in in He. apply (dl_trace _ _ _ _ LB e), He.
  - intros t Ht. assert (K : small tp start t /\ tag_le t o).
    { rewrite map_app in Ht. apply in_app_or in Ht. destruct Ht as [Ht|Ht]; apply in_map_iff in Ht; destruct Ht as (e & <- & He); apply upto_in in He; destruct He as (He & Le); (split; [|exact Le]); [apply (dl_trace _ _ _ _ LA e), He|apply (dl_trace _ _ _ _ LB e), He]. }
    destruct K as (Sm & Le). rewrite !upto_flatten by exact Le.
    eapply perm_trans; [apply Permutation_sym, perm_filter, (finished_rest a k Ha Fa Hk)|]. fold (at_tag t (produced (d_fed a) k)). rewrite (Ag t Sm Le). apply perm_filter, (finished_rest b k Hb Fb Hk).
Qed.
Lemma alike_logs k o : (k < tp_n tp)%nat -> (forall t, small tp start t -> tag_le t o -> alike t k) -> upto o (d_log (d_fed a k)) = upto o (d_log (d_fed b k)).
Proof.
  intros Hk Ag. rewrite <- (finished_effs a k Fa Hk), <- (finished_effs b k Fb Hk), !effs_replay by assumption. rewrite !replay_upto by (apply (v_loc a Ha) || apply (v_loc b Hb)). f_equal. apply replay_same. apply alike_entries; assumption.
Qed.
Lemma all_alike : forall t i, small tp start t -> (i < tp_n tp)%nat -> alike t i.
Proof.
  apply tag_node_ind. intros t i Sm Hi IHt IHz. unfold alike, produced. rewrite !at_tag_app. f_equal. unfold at_tag. rewrite !filter_flat_map. apply flat_map_in_ext. intros k Hk. apply in_seq in Hk.
  fold (at_tag t (flat_map (out k i) (d_log (d_fed a k)))) (at_tag t (flat_map (out k i) (d_log (d_fed b k)))). rewrite !contribution. f_equal.
  set (ca := filter (contributes t i k) (d_log (d_fed a k))). set (cb := filter (contributes t i k) (d_log (d_fed b k))).
  assert (D : map fst (ca ++ cb) = [] \/ map fst (ca ++ cb) <> []) by (destruct (map fst (ca ++ cb)); [now left|right; discriminate]).
  destruct D as [D|D]; [apply map_eq_nil, app_eq_nil in D; destruct D as (-> & ->); reflexivity|]. destruct (max_tag _ D) as (m & Hm & Hmax).
  assert (Em : upto m (d_log (d_fed a k)) = upto m (d_log (d_fed b k))).
  { apply in_map_iff in Hm. destruct Hm as ((o & e) & Eo & Hm). cbn [fst] in Eo. subst o. assert (K : good_eff k (m, e) /\ contributes t i k (m, e) = true).
    { apply in_app_or in Hm. destruct Hm as [Hm|Hm]; apply filter_In in Hm; destruct Hm as (Hm & Cm); (split; [|exact Cm]); [apply (dl_good _ _ _ _ (v_loc a Ha k) _ Hm)|apply (dl_good _ _ _ _ (v_loc b Hb k) _ Hm)]. }
    destruct K as (G & Cm). assert (Hout : exists x, In (t, x) (out k i (m, e))).
    { unfold contributes in Cm. destruct (at_tag t (out k i (m, e))) as [|(t' & x) l] eqn:E; [discriminate|]. exists x. assert (K : In (t', x) (at_tag t (out k i (m, e)))) by (rewrite E; now left). apply at_tag_in in K. destruct K as (K1 & K2). cbn [fst] in K2. subst t'. exact K1. }
    destruct Hout as (x & Hout). pose proof (link_less _ _ _ _ (out_link _ _ _ _ _ _ G Hout)) as B. apply alike_logs; [lia|]. intros t' St' Le. apply tag_le_lt_or_eq in Le. destruct Le as [Lt| ->].
    - apply IHt; [exact St'|lia|]. destruct B as [B|(-> & _)]; [eapply tag_lt_trans; eassumption|exact Lt].
    - destruct B as [B|(-> & B)]; [apply IHt; [exact St'|lia|exact B]|apply IHz; [lia|exact B]]. }
  transitivity (filter (contributes t i k) (upto m (d_log (d_fed a k)))); [|rewrite Em]; [symmetry|]; apply filter_filter_imp.
  - intros x Hx Cx. apply leb_spec, Hmax. apply in_map, in_or_app. left. apply filter_In. auto.
  - intros x Hx Cx. apply leb_spec, Hmax. apply in_map, in_or_app. right. apply filter_In. auto.
Qed.
Lemma finished_traces i : (i < tp_n tp)%nat -> Forall2 same (d_trace (d_fed a i)) (d_trace (d_fed b i)).
Proof.
  intros Hi. destruct (tag_le_total (done a i) (done b i)) as [Le|Lt].
  - rewrite <- (trace_upto a i Ha (done b i)), <- (trace_upto b i Hb (done b i)) by (exact Le || apply tag_le_refl). apply alike_entries; [exact Hi|]. intros t Sm _. apply all_alike; assumption.
  - rewrite <- (trace_upto a i Ha (done a i)), <- (trace_upto b i Hb (done a i)) by (apply tag_lt_le, Lt || apply tag_le_refl). apply alike_entries; [exact Hi|]. intros t Sm _. apply all_alike; assumption.
Qed.
Lemma finished_results i : (i < tp_n tp)%nat -> d_state (d_fed a i) = d_state (d_fed b i) /\ d_log (d_fed a i) = d_log (d_fed b i).
Proof.
  intros Hi. pose proof (replay_same i _ _ (finished_traces i Hi) (g_init g i)) as E. rewrite (dl_replay _ _ _ _ (v_loc a Ha i)), (dl_replay _ _ _ _ (v_loc b Hb i)) in E.
  destruct (Fa i Hi) as (_ & _ & _ & _ & Ta). destruct (Fb i Hi) as (_ & _ & _ & _ & Tb). rewrite Ta, Tb in E. cbn [map] in E. rewrite !app_nil_r in E. injection E as E1 E2. auto.
Qed.
End Finished.
End Data.
