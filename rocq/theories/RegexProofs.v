(** The language of a regular expression, and the correctness of the matcher. *)
From Verif Require Import Base CText Regex.
Open Scope Z_scope.

Inductive lang : regex -> text -> Prop :=
| LEps : lang Eps []
| LClass l c : in_class l c = true -> lang (Class l) [c]
| LCat a b s t : lang a s -> lang b t -> lang (Cat a b) (s ++ t)
| LAltL a b s : lang a s -> lang (Alt a b) s
| LAltR a b s : lang b s -> lang (Alt a b) s
| LStar0 a : lang (Star a) []
| LStarS a s t : lang a s -> lang (Star a) t -> lang (Star a) (s ++ t).

Lemma nullable_spec r : nullable r = true <-> lang r [].
Proof.
  induction r; cbn [nullable]; split; intros H; try discriminate; try (now inversion H); try (now constructor).
  - apply andb_prop in H. destruct H as [A B]. change (@nil Z) with (@nil Z ++ []). constructor; tauto.
  - inversion H as [| |? ? s t A B E1 E2| | | |]; subst. apply app_eq_nil in E2. destruct E2; subst. apply andb_true_intro; tauto.
  - apply orb_prop in H. destruct H as [H|H]; [apply LAltL|apply LAltR]; tauto.
  - inversion H; subst; apply orb_true_intro; tauto.
Qed.

Lemma star_cons a u : lang (Star a) u -> forall c s, u = c :: s -> exists s1 s2, s = s1 ++ s2 /\ lang a (c :: s1) /\ lang (Star a) s2.
Proof.
  intros H. remember (Star a) as r eqn:R. revert a R. induction H as [| | | | | |a s t Ha _ Hs IH]; intros a0 R cc w E; try discriminate.
  injection R as ->. destruct s as [|x s]; cbn [app] in E.
  - eapply IH; [reflexivity|exact E].
  - injection E as <- <-. exists s, t. auto.
Qed.

Lemma deriv_spec r : forall c s, lang (deriv c r) s <-> lang r (c :: s).
Proof.
  induction r as [| |l|a IHa b IHb|a IHa b IHb|a IHa]; intros c s; cbn [deriv].
  - split; intros H; inversion H.
  - split; intros H; inversion H.
  - split.
    + destruct (in_class l c) eqn:E; intros H; inversion H; subst. now constructor.
    + intros H. inversion H as [|? ? E| | | | |]; subst. rewrite E. constructor.
  - assert (Left : lang (Cat (deriv c a) b) s <-> exists s1 s2, s = s1 ++ s2 /\ lang a (c :: s1) /\ lang b s2).
    { split.
      - intros H. inversion H as [| |? ? s1 s2 A B| | | |]; subst. exists s1, s2. rewrite <- IHa. auto.
      - intros (s1 & s2 & -> & A & B). constructor; [apply IHa; exact A|exact B]. }
    assert (Whole : lang (Cat a b) (c :: s) <-> (exists s1 s2, s = s1 ++ s2 /\ lang a (c :: s1) /\ lang b s2) \/ (lang a [] /\ lang b (c :: s))).
    { split.
      - intros H. inversion H as [| |? ? u v A B E1 E2| | | |]; subst. destruct u as [|x u]; cbn [app] in E2; [subst; auto|].
        injection E2 as -> <-. left. exists u, v. auto.
      - intros [(s1 & s2 & -> & A & B)|[A B]]; [change (c :: s1 ++ s2) with ((c :: s1) ++ s2); now constructor|].
        change (c :: s) with ([] ++ c :: s). now constructor. }
    destruct (nullable a) eqn:N.
    + rewrite Whole. split.
      * intros H. inversion H; subst; [left; now apply Left|right; split; [now apply nullable_spec|now apply IHb]].
      * intros [H|[_ H]]; [apply LAltL, Left, H|apply LAltR, IHb, H].
    + rewrite Left, Whole. split; [auto|]. intros [H|[H _]]; [exact H|]. apply nullable_spec in H. congruence.
  - split; intros H; inversion H; subst; [apply LAltL, IHa|apply LAltR, IHb|apply LAltL, IHa|apply LAltR, IHb]; assumption.
  - split.
    + intros H. inversion H as [| |? ? s1 s2 A B| | | |]; subst. change (c :: s1 ++ s2) with ((c :: s1) ++ s2). constructor; [apply IHa; exact A|exact B].
    + intros H. destruct (star_cons a _ H c s eq_refl) as (s1 & s2 & -> & A & B). constructor; [apply IHa; exact A|exact B].
Qed.

Lemma matches_spec s : forall r, matches r s = true <-> lang r s.
Proof. induction s as [|c s IH]; intros r; cbn [matches]; [apply nullable_spec|]. rewrite IH. apply deriv_spec. Qed.

Lemma matches_prefix_spec s : forall r, matches_prefix r s = true <-> exists p q, s = p ++ q /\ lang r p.
Proof.
  induction s as [|c s IH]; intros r; cbn [matches_prefix]; rewrite orb_true_iff, nullable_spec.
  - split; [intros [H|H]; [exists [], []; auto|discriminate]|]. intros (p & q & E & H). symmetry in E. apply app_eq_nil in E. destruct E; subst. auto.
  - rewrite IH. split.
    + intros [H|(p & q & -> & H)]; [exists [], (c :: s); auto|]. exists (c :: p), q. split; [reflexivity|]. now apply deriv_spec.
    + intros (p & q & E & H). destruct p as [|x p]; [auto|]. injection E as <- ->. right. exists p, q. split; [reflexivity|]. now apply deriv_spec.
Qed.

(** What a branch matches: some part of the text, at the start if anchored there,
    at the end if anchored there. *)
Lemma match_branch_spec b s : match_branch b s = true <->
  exists p m q, s = p ++ m ++ q /\ lang (body b) m /\ (from_start b = true -> p = []) /\ (to_end b = true -> q = []).
Proof.
  assert (Here : forall s, match_here b s = true <-> exists m q, s = m ++ q /\ lang (body b) m /\ (to_end b = true -> q = [])).
  { intros u. unfold match_here. destruct (to_end b).
    - rewrite matches_spec. split; [intros H; exists u, []; rewrite app_nil_r; auto|]. intros (m & q & -> & H & Q). rewrite (Q eq_refl), app_nil_r. exact H.
    - rewrite matches_prefix_spec. split; [intros (p & q & E & H); exists p, q; repeat split; try assumption; discriminate|]. intros (m & q & E & H & _). exists m, q. auto. }
  unfold match_branch. destruct (from_start b).
  - rewrite Here. split.
    + intros (m & q & E & H & Q). exists [], m, q. auto.
    + intros (p & m & q & E & H & P & Q). rewrite (P eq_refl) in E. exists m, q. auto.
  - assert (Later : forall s, match_later b s = true <-> exists p m q, s = p ++ m ++ q /\ lang (body b) m /\ (to_end b = true -> q = [])).
    { induction s0 as [|c u IH]; cbn [match_later]; rewrite orb_true_iff, Here.
      - split; [intros [(m & q & E & H)|H]; [exists [], m, q; auto|discriminate]|].
        intros (p & m & q & E & H & Q). left. symmetry in E. apply app_eq_nil in E. destruct E as [-> E]. exists m, q. auto.
      - rewrite IH. split.
        + intros [(m & q & E & H)|(p & m & q & -> & H)]; [exists [], m, q; auto|exists (c :: p), m, q; auto].
        + intros (p & m & q & E & H & Q). destruct p as [|x p]; [left; exists m, q; auto|]. injection E as <- ->. right. exists p, m, q. auto. }
    rewrite Later. split.
    + intros (p & m & q & E & H & Q). exists p, m, q. split; [exact E|]. split; [exact H|]. split; [discriminate|exact Q].
    + intros (p & m & q & E & H & _ & Q). exists p, m, q. auto.
Qed.

(** Inversion lemmas as equivalences. *)
Lemma lang_class l s : lang (Class l) s <-> exists c, s = [c] /\ in_class l c = true.
Proof. split; [intros H; inversion H; subst; eauto|intros (c & -> & H); now constructor]. Qed.
Lemma lang_cat a b s : lang (Cat a b) s <-> exists u v, s = u ++ v /\ lang a u /\ lang b v.
Proof. split; [intros H; inversion H; subst; eauto 6|intros (u & v & -> & A & B); now constructor]. Qed.
Lemma lang_alt a b s : lang (Alt a b) s <-> lang a s \/ lang b s.
Proof. split; [intros H; inversion H; subst; auto|intros [H|H]; [apply LAltL|apply LAltR]; exact H]. Qed.
Lemma lang_eps s : lang Eps s <-> s = [].
Proof. split; [intros H; now inversion H|intros ->; constructor]. Qed.
Lemma lang_opt a s : lang (Opt a) s <-> s = [] \/ lang a s.
Proof. unfold Opt. rewrite lang_alt, lang_eps. reflexivity. Qed.
Lemma lang_star_class l s : lang (Star (Class l)) s <-> Forall (fun c => in_class l c = true) s.
Proof.
  split.
  - intros H. remember (Star (Class l)) as r eqn:R. induction H; try discriminate; [constructor|]. injection R as ->.
    apply lang_class in H. destruct H as (c & -> & C). constructor; auto.
  - induction 1 as [|c s C _ IH]; [constructor|]. change (c :: s) with ([c] ++ s). constructor; [now constructor|exact IH].
Qed.
Lemma lang_plus_class l s : lang (Plus (Class l)) s <-> s <> [] /\ Forall (fun c => in_class l c = true) s.
Proof.
  unfold Plus. rewrite lang_cat. split.
  - intros (u & v & -> & A & B). apply lang_class in A. destruct A as (c & -> & C). apply lang_star_class in B. split; [discriminate|]. constructor; assumption.
  - intros [N F]. destruct F as [|c s C F]; [congruence|]. exists [c], s. split; [reflexivity|]. split; [now constructor|now apply lang_star_class].
Qed.
Lemma lang_upto_class n l : forall s, lang (UpTo n (Class l)) s <-> (length s <= n)%nat /\ Forall (fun c => in_class l c = true) s.
Proof.
  induction n as [|n IH]; intros s; cbn [UpTo].
  - rewrite lang_eps. split; [intros ->; split; [cbn; lia|constructor]|]. intros [H _]. destruct s; [reflexivity|cbn in H; lia].
  - rewrite lang_alt, lang_eps, lang_cat. split.
    + intros [->|(u & v & -> & A & B)]; [split; [cbn; lia|constructor]|]. apply lang_class in A. destruct A as (c & -> & C).
      apply IH in B. destruct B. split; [cbn; lia|]. constructor; assumption.
    + intros [L F]. destruct F as [|c s C F]; [auto|]. right. exists [c], s. split; [reflexivity|]. split; [now constructor|]. apply IH. cbn in L. split; [lia|exact F].
Qed.
