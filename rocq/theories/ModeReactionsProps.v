(** Reactions of modes to startup, reset and shutdown (C66). *)
From Verif Require Import Base Tag TagSpec TagProofs.
From Verif Require TagBarrierProofs.
Import TagBarrierProofs.
From Verif Require Import Modes ModesSpec ModesProofs ModesEventsProofs ModesSwitchProofs ModesProps.
From Verif Require Import ModeReactions ModeReactionsSpec ModeReactionsProofs.

(** Startup, reset and shutdown trigger exactly the reactions that are due, each once. *)
Theorem C66_exactly p x t0 st s r h : program_ok p -> reactions_ok p x -> mexec p x t0 st s (r :: h) ->
  NoDup (r_queue r) /\ forall y, In y (r_queue r) <-> due p x r h y.
Proof.
  intros OK RO X. destruct (mexec_inv p x OK t0 st s (r :: h) RO X) as (V & r' & h' & E & Q). injection E as <- <-. split; [|exact Q].
  destruct (i_cur _ _ _ V) as (r' & h' & E & _ & Eq). injection E as <- <-. rewrite Eq. apply (i_nodup _ _ _ V).
Qed.

Lemma mexec_nonempty p x t0 st s h : mexec p x t0 st s h -> h <> [].
Proof. intros X. induction X; auto; discriminate. Qed.
(** Every round was the newest one of an execution. *)
Lemma mexec_suffix p x t0 st s h : mexec p x t0 st s h -> forall h1 r h2, h = h1 ++ r :: h2 -> exists s', mexec p x t0 st s' (r :: h2).
Proof.
  intros X. induction X as [|s h o s' l X IH A N St|s h t s' l X IH L St|s h t s' l X IH A St]; intros h1 r h2 E; eauto.
  - destruct h1 as [|a [|b h1]]; [injection E as <- <-; eexists; constructor|discriminate|discriminate].
  - destruct h1 as [|a h1]; [injection E as <- <-; exists s'; econstructor 4; eassumption|]. injection E as _ E. eauto.
Qed.

(** A mode other than an initial mode inside of another mode is active only after it was entered. *)
Definition regular (p : program) (m : mode) : Prop := m <> initial p (owner p m) \/ outermost p m.
Lemma regular_begun p x t0 st s r h m : program_ok p -> reactions_ok p x -> (owner p m < size p)%nat -> regular p m -> mexec p x t0 st s (r :: h) -> active_in p r m -> begun p (r :: h) m.
Proof.
  intros OK RO Hm Re X A. destruct (mexec_inv p x OK t0 st s (r :: h) RO X) as (V & _). destruct (i_cur _ _ _ V) as (r' & h' & E & Ec & _). injection E as <- <-.
  assert (cur (base s) (owner p m) = m) as C by (rewrite <- Ec; destruct A; assumption).
  destruct (i_at _ _ _ V (owner p m) Hm) as [I|(r' & c & I1 & I2)]; [|left; exists r', c; rewrite C in I2; auto].
  rewrite C in I. destruct Re as [Re|(_ & Re)]; [contradiction|]. right.
  destruct (exists_last (l := r :: h) ltac:(discriminate)) as (h1 & r0 & E). exists h1, r0. split; [exact E|].
  destruct (mexec_suffix p x t0 st s _ X h1 r0 [] E) as (s0 & X0).
  assert (forall s h, mexec p x t0 st s h -> forall r, h = [r] -> r = round_of (minit p x t0 st) []) as Fst.
  { clear. intros s h X. induction X as [|s h o s' l X IH A N St|s h t s' l X IH L St|s h t s' l X IH A St]; intros r E; eauto; [now injection E as <-|]. injection E as _ ->. now destruct (mexec_nonempty _ _ _ _ _ _ X). }
  rewrite (Fst s0 _ X0 r0 eq_refl) in X0 |- *. apply active_top; [|exact Re]. unfold round_of. cbn [r_cur]. rewrite minit_base.
  destruct (mexec_inv p x OK t0 st _ _ RO (mx_start p x t0 st)) as (V0 & _).
  destruct (i_at _ _ _ V0 (owner p m) Hm) as [J|(r' & c & [<-|[]] & J2)]; [rewrite minit_base in J; congruence|destruct J2].
Qed.
Lemma regular_seen p x t0 st s h m : program_ok p -> reactions_ok p x -> (owner p m < size p)%nat -> regular p m -> mexec p x t0 st s h -> seen p h m <-> was_active p h m.
Proof.
  intros OK RO Hm Re X. split.
  - intros (h1 & r & h2 & -> & A & _). exists r. split; [apply in_elt|exact A].
  - intros (r & Hr & A). apply in_split in Hr. destruct Hr as (h1 & h2 & ->). destruct (mexec_suffix p x t0 st s _ X h1 r h2 eq_refl) as (s' & X'). exists h1, r, h2. split; [reflexivity|]. split; [exact A|]. eapply regular_begun; eauto.
Qed.
Lemma older p x t0 st s r h : mexec p x t0 st s (r :: h) -> h = [] \/ exists s', mexec p x t0 st s' h.
Proof. intros X. destruct h as [|r' h]; [now left|right]. destruct (mexec_suffix p x t0 st s _ X [r] r' h eq_refl) as (s' & X'). eauto. Qed.
Lemma seen_active p x t0 st s r h m : program_ok p -> reactions_ok p x -> (owner p m < size p)%nat -> regular p m -> mexec p x t0 st s (r :: h) -> seen p h m <-> was_active p h m.
Proof.
  intros OK RO Hm Re X. destruct (older _ _ _ _ _ _ _ X) as [->|(s' & X')]; [|eapply regular_seen; eauto].
  split; [intros (h1 & r1 & h2 & E & _); destruct h1; discriminate|intros (r1 & [] & _)].
Qed.

(** *** Startup *)
(** A startup reaction is triggered at the first tag at which its mode is active, and at no other.
    Missing for the full statement: the initial modes of modal reactors inside of other modes,
    of which it is false, see [C66_startup_refuted]. *)
Theorem C66_startup_partial p x t0 st s r h y m : program_ok p -> reactions_ok p x -> mexec p x t0 st s (r :: h) ->
  In y (startups x) -> ~ In y (resets x) -> ~ In y (shutdowns x) -> rmode x y = Some m -> regular p m ->
  In y (r_queue r) <-> first_active p r h m.
Proof.
  intros OK RO X S1 S2 S3 Rm Re. rewrite (proj2 (C66_exactly p x t0 st s r h OK RO X) y). unfold due. rewrite Rm. pose proof (RO y m Rm) as Hm.
  unfold startup_due, first_active. rewrite (seen_active p x t0 st s r h m OK RO Hm Re X). split; [tauto|]. intros (A & B). left. split; [exact S1|]. split; [exact A|]. split; [|exact B]. eapply regular_begun; eauto.
Qed.
(** No startup reaction is triggered by startup twice, whatever its mode. *)
Theorem C66_startup_once p x t0 st s r h r' y m : program_ok p -> reactions_ok p x -> mexec p x t0 st s (r :: h) ->
  ~ In y (resets x) -> ~ In y (shutdowns x) -> rmode x y = Some m -> In y (r_queue r) -> In r' h -> ~ In y (r_queue r').
Proof.
  intros OK RO X S2 S3 Rm H Hr H'. apply in_split in Hr. destruct Hr as (h1 & h2 & ->). destruct (mexec_suffix p x t0 st s _ X (r :: h1) r' h2 eq_refl) as (s' & X').
  apply (C66_exactly p x t0 st s _ _ OK RO X) in H. apply (C66_exactly p x t0 st s' _ _ OK RO X') in H'. unfold due in *. rewrite Rm in *. unfold startup_due in *.
  destruct H as [(_ & _ & _ & N)|[(? & _)|(? & _)]]; try contradiction. destruct H' as [(_ & A & B & _)|[(? & _)|(? & _)]]; try contradiction. apply N. exists h1, r', h2. auto.
Qed.

(** *** Reset *)
(** A reset reaction is triggered at the first tag at which its mode is active after it was
    entered by a reset, and at no other. *)
Theorem C66_reset p x t0 st s r h y m : program_ok p -> reactions_ok p x -> mexec p x t0 st s (r :: h) ->
  In y (resets x) -> ~ In y (startups x) -> ~ In y (shutdowns x) -> rmode x y = Some m ->
  In y (r_queue r) <-> reset_due p r h m.
Proof. intros OK RO X S1 S2 S3 Rm. rewrite (proj2 (C66_exactly p x t0 st s r h OK RO X) y). unfold due. rewrite Rm. tauto. Qed.
(** For a mode that is not inside of another one these are the tags right after the resets. *)
Theorem C66_reset_outermost p x t0 st s r h y m : program_ok p -> reactions_ok p x -> mexec p x t0 st s (r :: h) ->
  In y (resets x) -> ~ In y (startups x) -> ~ In y (shutdowns x) -> rmode x y = Some m -> outermost p m ->
  In y (r_queue r) <-> enters r m Reset.
Proof.
  intros OK RO X S1 S2 S3 Rm Om. rewrite (C66_reset p x t0 st s r h y m) by assumption. destruct (mexec_inv p x OK t0 st s (r :: h) RO X) as (V & _).
  assert (forall r1 c, In r1 (r :: h) -> enters r1 m c -> active_in p r1 m) as K. { intros r1 c Hr He. destruct (i_enters _ _ _ V r1 m c Hr He) as (_ & C). apply active_top; [exact C|apply Om]. }
  unfold reset_due. split.
  - intros (_ & h1 & r1 & h2 & E & A & B & C). destruct h1 as [|a h1]; [now injection E as -> ->|]. exfalso. apply (C r1); [cbn; apply in_elt|]. apply (K r1 Reset); [rewrite E; apply in_elt|exact A].
  - intros A. split; [apply (K r Reset); [now left|exact A]|]. exists [], r, h. repeat split; auto; intros r' [].
Qed.

(** *** Shutdown *)
(** At the last tag the shutdown reactions of the modes that have been active are triggered,
    whether they are active then or not.  Missing: initial modes inside of other modes,
    [C66_shutdown_nested_refuted], and modes that are active at no tag but the last one,
    [C66_shutdown_last_refuted]. *)
Theorem C66_shutdown_partial p x t0 st s r h y m : program_ok p -> reactions_ok p x -> mexec p x t0 st s (r :: h) ->
  In y (shutdowns x) -> ~ In y (startups x) -> ~ In y (resets x) -> rmode x y = Some m -> regular p m ->
  In y (r_queue r) <-> r_last r = true /\ (was_active p h m \/ h = [] /\ active_in p r m).
Proof.
  intros OK RO X S1 S2 S3 Rm Re. rewrite (proj2 (C66_exactly p x t0 st s r h OK RO X) y). unfold due. rewrite Rm. pose proof (RO y m Rm) as Hm.
  unfold shutdown_due. rewrite (seen_active p x t0 st s r h m OK RO Hm Re X). tauto.
Qed.
(** There is no tag after the last one. *)
Theorem C66_last p x t0 st s r h r' : mexec p x t0 st s (r :: h) -> In r' h -> r_last r' = false.
Proof.
  intros X. assert (forall s h, mexec p x t0 st s h -> exists r h', h = r :: h' /\ (r_last r = true -> at_stop s = true) /\ forall r', In r' h' -> r_last r' = false) as G.
  { clear. intros s h X. induction X as [|s h o s' l X IH A N St|s h t s' l X IH L St|s h t s' l X IH A St].
    - eexists. exists []. split; [reflexivity|]. split; [intros E; exact E|intros r' []].
    - destruct IH as (r & h' & -> & E & F). exists r, h'. split; [reflexivity|]. split; [|exact F]. intros R. specialize (E R). destruct o as [i m c|tr u|l0|u]; cbn [mstep step] in St; try (destruct (N u); reflexivity); injection St as <- <-; exact E.
    - destruct IH as (r & h' & -> & E & F). exists r, h'. split; [reflexivity|]. split; [|exact F]. intros R. specialize (E R). cbn [mstep] in St. destruct (tag_compare t (stop (base s)) <? 0) eqn:C; injection St as <- <-; [|exact E].
      exfalso. unfold at_stop in E. apply cmp_ge0 in E. apply cmp_lt0 in C. apply (tag_lt_irrefl (now (base s))). eapply tag_lt_trans; [exact L|]. eapply tag_lt_le_trans; eassumption.
    - destruct IH as (r & h' & -> & E & F). eexists. eexists. split; [reflexivity|]. split; [intros R; exact R|]. intros r' [<-|Hr]; [|auto]. destruct (r_last r); [|reflexivity].
      cbn [mstep] in St. rewrite E in St by reflexivity. discriminate. }
  intros Hr. destruct (G s _ X) as (r0 & h0 & E & _ & F). injection E as <- <-. auto.
Qed.

(** ** Examples: the program [demo] of ModesProps.v.  The reactions 0, 1 and 2 react to startup,
    reset and shutdown in mode 1; 3, 4 and 5 in mode 2, which is inside of mode 0. *)
Definition rx : reactions := mkReactions [0; 3]%nat [1; 4]%nat [2; 5]%nat (fun y => match y with 0 | 1 | 2 => Some 1 | 3 | 4 | 5 => Some 2 | _ => None end)%nat.
Lemma rx_ok : reactions_ok demo rx.
Proof. intros y m. do 6 (destruct y as [|y]; [intros E; injection E as <-; cbn; lia|]). discriminate. Qed.
Fixpoint mrun (p : program) (x : reactions) (s : mstate) (h : list round) (os : list mop) : option (mstate * list round) :=
  match os with
  | [] => Some (s, h)
  | Do o :: os =>
      if allowedb p (base s) o then
        match mstep p x s (Do o) with Some (s', l) => mrun p x s' (match o with Advance _ => round_of s' l :: h | _ => h end) os | None => None end
      else None
  | Stop t :: os => if tag_compare (now (base s)) t <? 0 then match mstep p x s (Stop t) with Some (s', _) => mrun p x s' h os | None => None end else None
  end.
Lemma mallowed p x s h t0 st o : program_ok p -> reactions_ok p x -> mexec p x t0 st s h -> allowedb p (base s) o = true -> allowed p (base s) o.
Proof.
  intros OK RO X. destruct (mexec_inv p x OK t0 st s h RO X) as (V & _). destruct o as [i m c|tr t|l|t]; cbn [allowedb allowed].
  - rewrite !andb_true_iff. intros ((A & B) & C). apply Nat.ltb_lt in A. apply Nat.eqb_eq in B. split; [exact A|]. split; [exact B|]. now destruct c.
  - rewrite andb_true_iff. intros (A & B). apply cmp_lt0 in A. split; [exact A|]. destruct (tmode p tr) as [m|] eqn:Tm; [|exact I]. apply (local_active p OK (base s)); [apply (i_good _ _ _ V)|now apply (po_modes _ OK tr)|exact B].
  - intros H. apply evs_eqb_ok in H. subst l. apply Permutation.Permutation_rev.
  - unfold tag_okb. rewrite !andb_true_iff. intros (((A & B) & C) & D). apply Z.leb_le in A, C. apply Z.ltb_lt in B, D. unfold tag_ok, in_int64, in_uint32, UINT_MAX, two32, FOREVER, LLONG_MAX, LLONG_MIN in *. lia.
Qed.
Lemma mrun_exec p x t0 st os : program_ok p -> reactions_ok p x -> forall s h s' h', mexec p x t0 st s h -> mrun p x s h os = Some (s', h') -> mexec p x t0 st s' h'.
Proof.
  intros OK RO. induction os as [|[o|t] os IH]; intros s h s' h' X; cbn [mrun]; [intros H; now injection H as <- <-| |].
  - destruct (allowedb p (base s) o) eqn:A; [|discriminate]. destruct (mstep p x s (Do o)) as [[s1 l]|] eqn:S1; [|discriminate]. apply IH. pose proof (mallowed p x s h t0 st o OK RO X A) as Al.
    destruct o as [i m c|tr u|l0|u]; [eapply mx_within; eauto; discriminate|eapply mx_within; eauto; discriminate|eapply mx_within; eauto; discriminate|eapply mx_round; eauto].
  - destruct (tag_compare (now (base s)) t <? 0) eqn:A; [|discriminate]. destruct (mstep p x s (Stop t)) as [[s1 l]|] eqn:S1; [|discriminate]. apply IH. apply cmp_lt0 in A. eapply mx_stop; eauto.
Qed.
Definition mstart (t0 : Z) (st : tag) (os : list mop) := mrun demo rx (minit demo rx t0 st) [round_of (minit demo rx t0 st) []] os.
Lemma mstart_exec t0 st os s h : mstart t0 st os = Some (s, h) -> mexec demo rx t0 st s h.
Proof. apply mrun_exec; [exact demo_ok|exact rx_ok|constructor]. Qed.

(** At the start reaction 3 is triggered.  Mode 1 is entered by a reset: the reactions 0 and 1.  Back to
    mode 0 by a reset, which resets mode 2, too: reaction 4.  Once more to mode 1: only the
    reaction 1.  In the end both shutdown reactions, although mode 2 is not active. *)
Example C66_ex : exists s h, mexec demo rx 1000 end_ s h /\
  map r_queue h = [[2; 5]; []; [1]; [4]; [0; 1]; []; [3]]%nat /\ map r_last h = [true; false; false; false; false; false; false].
Proof.
  destruct (mstart 1000 end_ [Do (Advance (T 1100)); Do (SetMode 0%nat 1%nat Reset); Do (Advance (mkTag 1100 1)); Do (SetMode 0%nat 0%nat Reset); Do (Advance (mkTag 1100 2)); Do (SetMode 0%nat 1%nat Reset);
    Do (Advance (mkTag 1100 3)); Do (Advance (T 1150)); Stop (T 1160); Do (Advance (T 1160))]) as [[s h]|] eqn:R; [|vm_compute in R; discriminate].
  exists s, h. split; [exact (mstart_exec _ _ _ _ _ R)|]. vm_compute in R. injection R as <- <-. split; reflexivity.
Qed.

(** *** What is false *)
(** A program whose modal reactor 1 is inside of mode 1, which is not initial. *)
Definition inner : program :=
  mkProgram 2 (fun m => match m with 0 | 1 => 0 | 2 | 3 => 1 | _ => 2 end)%nat (fun i => match i with 1%nat => Some 1%nat | _ => None end)
    (fun i => match i with 0 => 0 | _ => 2 end)%nat [] (fun _ => None) (fun _ => false) (fun _ => 0) (fun _ => 0) (fun _ => Defer).
Lemma inner_ok : program_ok inner.
Proof.
  split.
  - intros [|[|i]]; cbn; auto. lia.
  - intros [|[|i]] m; cbn; try discriminate. intros _ H. injection H as <-. cbn. lia.
  - intros tr. cbn. unfold LLONG_MAX. lia.
  - discriminate.
  - constructor.
  - intros tr [].
Qed.
Definition ix : reactions := mkReactions [3]%nat [] [5]%nat (fun y => match y with 3 | 5 => Some 2 | _ => None end)%nat.
Lemma ix_ok : reactions_ok inner ix.
Proof. intros y m. do 6 (destruct y as [|y]; [intros E; (discriminate || (injection E as <-; cbn; lia))|]). discriminate. Qed.

(** Mode 1 is entered by a history transition for the first time.  Mode 2 inside of it
    gets active, but its startup reaction 3 is triggered neither then nor later, nor is its shutdown reaction 5. *)
Definition inner_run : list mop := [Do (Advance (T 1100)); Do (SetMode 0%nat 1%nat History); Do (Advance (mkTag 1100 1)); Do (Advance (T 1200)); Stop (T 1300); Do (Advance (T 1300))].
Lemma inner_exec : exists s h, mexec inner ix 1000 end_ s h /\ map r_queue h = [[]; []; []; []; []] /\ map (fun r => (r_cur r 0, r_cur r 1)%nat) h = [(1, 2); (1, 2); (1, 2); (0, 2); (0, 2)]%nat /\ map r_last h = [true; false; false; false; false].
Proof.
  destruct (mrun inner ix (minit inner ix 1000 end_) [round_of (minit inner ix 1000 end_) []] inner_run) as [[s h]|] eqn:R; [|vm_compute in R; discriminate].
  exists s, h. split; [eapply (mrun_exec inner ix 1000 end_ inner_run inner_ok ix_ok); [constructor|exact R]|]. vm_compute in R. injection R as <- <-. repeat split.
Qed.
Theorem C66_startup_refuted : exists p x t0 st s h y m, program_ok p /\ reactions_ok p x /\ mexec p x t0 st s h /\
  In y (startups x) /\ rmode x y = Some m /\ was_active p h m /\ forall r, In r h -> ~ In y (r_queue r).
Proof.
  destruct inner_exec as (s & h & X & Q & C & _). exists inner, ix, 1000, end_, s, h, 3%nat, 2%nat. split; [exact inner_ok|]. split; [exact ix_ok|]. split; [exact X|]. split; [now left|]. split; [reflexivity|]. split.
  - destruct h as [|r h]; [discriminate|]. exists r. split; [now left|]. injection C as C1 C2 _. eapply active_inner; [exact C2|reflexivity|]. apply active_top; [exact C1|reflexivity].
  - intros r Hr. assert (In (r_queue r) (map r_queue h)) as K by now apply in_map. rewrite Q in K. cbn in K. decompose [or] K; try easy; match goal with E : [] = r_queue r |- _ => rewrite <- E; intros [] end.
Qed.
Theorem C66_shutdown_nested_refuted : exists p x t0 st s r h y m, program_ok p /\ reactions_ok p x /\ mexec p x t0 st s (r :: h) /\
  In y (shutdowns x) /\ rmode x y = Some m /\ was_active p h m /\ r_last r = true /\ ~ In y (r_queue r).
Proof.
  destruct inner_exec as (s & h & X & Q & C & L). destruct h as [|r [|r' h]]; try discriminate. exists inner, ix, 1000, end_, s, r, (r' :: h), 5%nat, 2%nat. split; [exact inner_ok|]. split; [exact ix_ok|]. split; [exact X|]. split; [now left|]. split; [reflexivity|]. split.
  - exists r'. split; [now left|]. injection C as _ _ C1 C2 _. eapply active_inner; [exact C2|reflexivity|]. apply active_top; [exact C1|reflexivity].
  - injection L as L _. split; [exact L|]. injection Q as Q _. rewrite Q. intros [].
Qed.
(** Mode 1 is entered right before the last tag.  Its startup reaction 0 is triggered at the
    last tag, its shutdown reaction 2 is not: it is looked at before. *)
Theorem C66_shutdown_last_refuted : exists p x t0 st s r h y z m, program_ok p /\ reactions_ok p x /\ mexec p x t0 st s (r :: h) /\
  r_last r = true /\ outermost p m /\ active_in p r m /\
  In y (startups x) /\ rmode x y = Some m /\ In y (r_queue r) /\ In z (shutdowns x) /\ rmode x z = Some m /\ ~ In z (r_queue r).
Proof.
  destruct (mstart 1000 end_ [Do (Advance (T 1100)); Do (SetMode 0%nat 1%nat Reset); Stop (mkTag 1100 1); Do (Advance (mkTag 1100 1))]) as [[s h]|] eqn:R; [|vm_compute in R; discriminate].
  pose proof (mstart_exec _ _ _ _ _ R) as X. assert (map r_queue h = [[5; 0; 1]; []; [3]]%nat /\ map r_last h = [true; false; false] /\ map (fun r => r_cur r 0%nat) h = [1; 0; 0]%nat) as (Q & L & C) by (vm_compute in R; injection R as <- <-; repeat split).
  destruct h as [|r h]; [discriminate|]. injection Q as Q _. injection L as L _. injection C as C _. exists demo, rx, 1000, end_, s, r, h, 0%nat, 2%nat, 1%nat. split; [exact demo_ok|]. split; [exact rx_ok|]. split; [exact X|]. split; [exact L|].
  split; [split; [cbn; lia|reflexivity]|]. split; [apply active_top; [exact C|reflexivity]|]. rewrite Q. cbn. repeat split; auto. intuition discriminate.
Qed.

Print Assumptions C66_exactly.
Print Assumptions C66_startup_partial.
Print Assumptions C66_startup_once.
Print Assumptions C66_reset.
Print Assumptions C66_reset_outermost.
Print Assumptions C66_shutdown_partial.
Print Assumptions C66_last.
Print Assumptions C66_startup_refuted.
Print Assumptions C66_shutdown_nested_refuted.
Print Assumptions C66_shutdown_last_refuted.
