From Verif Require Import Base Tag TagSpec TagProofs PhysicalNet PhysicalNetSpec.
Local Open Scope Z_scope.

Lemma next_le q : forall e, In e q -> tag_le (next_tag q) (e_tag e).
Proof.
  induction q as [|x q IH]; intros e [].
  - subst x. cbn [next_tag fold_right]. fold (next_tag q). destruct (Z.ltb_spec (tag_compare (e_tag e) (next_tag q)) 0) as [L|L]; [apply tag_le_refl|]. apply tag_compare_ge, L.
  - cbn [next_tag fold_right]. fold (next_tag q). destruct (Z.ltb_spec (tag_compare (e_tag x) (next_tag q)) 0) as [L|L]; [|apply IH; assumption]. apply (tag_le_trans _ (next_tag q)); [apply tag_compare_le; lia|apply IH; assumption].
Qed.
Lemma next_in q : next_tag q = FOREVER_TAG \/ exists e, In e q /\ e_tag e = next_tag q.
Proof.
  induction q as [|x q IH]; [left; reflexivity|]. cbn [next_tag fold_right]. fold (next_tag q). destruct (tag_compare (e_tag x) (next_tag q) <? 0); [right; exists x; split; [left|]; reflexivity|].
  destruct IH as [IH|(e & I & E)]; [left; exact IH|right; exists e; split; [right; exact I|exact E]].
Qed.
Lemma next_cons e q : tag_le (next_tag (e :: q)) (next_tag q).
Proof. cbn [next_tag fold_right]. fold (next_tag q). destruct (Z.ltb_spec (tag_compare (e_tag e) (next_tag q)) 0) as [L|L]; [apply tag_compare_le; lia|apply tag_le_refl]. Qed.
Lemma has_tag_eq t e : has_tag t e = true <-> e_tag e = t.
Proof. unfold has_tag. rewrite Z.eqb_eq. apply tag_compare_eq. Qed.
Lemma le_time a b : tag_le a b -> ttime a <= ttime b.
Proof. unfold tag_le. lia. Qed.
Lemma lt_time a b : tag_lt a b -> ttime a <= ttime b.
Proof. unfold tag_lt. lia. Qed.

Section Run.
Variable c : config.
Hypothesis MIN : 0 <= c_min c.
Hypothesis INT : 1 <= c_interval c.

Definition nets (s : fed) (t : tag) : Prop := In (SNet t) (f_log s).
Definition at_work (s : fed) (e : event) : Prop := match f_phase s with Working l => In e l | _ => False end.
Record Inv (s : fed) : Prop := {
  v_slack : forall e, In e (f_queue s) \/ at_work s e -> 0 <= e_slack e;
  v_queue : forall t e, nets s t -> In e (f_queue s) \/ at_work s e -> e_local e = true -> ttime t <= ttime (e_tag e) + e_slack e;
  v_now : forall t, nets s t -> ttime t <= f_now s + c_min c;
  v_ready : match f_phase s with Ready t => tag_le (next_tag (f_queue s)) t /\ ttime t <= f_now s + c_min c | Working l => forall e, In e l -> e_tag e = f_current s | _ => True end;
  v_log : promises same_time_or_later (f_log s) }.
Lemma promises_net r log t : promises r log -> promises r (SNet t :: log).
Proof. intros P after before g x E I. destruct after as [|y after]; [discriminate|]. injection E as <- E. exact (P after before g x E I). Qed.
Lemma promises_out (r : tag -> tag -> Prop) log g b : promises r log -> (b = true -> forall t, In (SNet t) log -> r t g) -> promises r (SOut g b :: log).
Proof. intros P N after before g' x E I. destruct after as [|y after]; [injection E as <- -> <-; apply N; auto|]. injection E as <- E. exact (P after before g' x E I). Qed.
Lemma promises_nil r : promises r [].
Proof. intros after before g t E. destruct after; discriminate. Qed.

Lemma inv_put s e : Inv s -> 0 <= e_slack e -> (e_local e = true -> forall t, nets s t -> ttime t <= ttime (e_tag e) + e_slack e) -> Inv (put e s).
Proof.
  intros [A B C D L] S N. constructor; unfold nets, at_work in *; cbn [put f_now f_current f_queue f_phase f_log] in *; auto.
  - intros x [[<-|I]|I]; auto.
  - intros t x T [[<-|I]|I] LO; auto.
  - destruct (f_phase s); auto. destruct D as [D1 D2]. split; [|exact D2]. eapply tag_le_trans; [apply next_cons|exact D1].
Qed.
Lemma inv_set s p : Inv s -> (forall e, ~ match p with Working l => In e l | _ => False end) -> match p with Ready t => tag_le (next_tag (f_queue s)) t /\ ttime t <= f_now s + c_min c | Working _ => False | _ => True end -> Inv (set_phase p s).
Proof.
  intros [A B C D L] W R. constructor; unfold nets, at_work in *; cbn [set_phase f_now f_current f_queue f_phase f_log] in *; auto.
  - intros x [I|I]; [auto|]. destruct (W x I).
  - intros t x T [I|I] LO; [auto|]. destruct (W x I).
  - destruct p; auto. destruct R.
Qed.
Lemma inv_net s : Inv s -> (forall e, ~ at_work s e) -> ttime (next_tag (f_queue s)) <= f_now s + c_min c -> Inv (say (SNet (next_tag (f_queue s))) s).
Proof.
  intros [A B C D L] W T. constructor; unfold nets, at_work in *; cbn [say f_now f_current f_queue f_phase f_log In] in *; auto.
  - intros t e [E|I] [Q|Q] LO; try solve [destruct (W e Q)]; [|auto]. injection E as <-. pose proof (le_time _ _ (next_le _ e Q)). pose proof (A e (or_introl Q)). lia.
  - intros t [E|I]; [injection E as <-; exact T|auto].
  - apply promises_net, L.
Qed.
Lemma piled_time q t m t' : piled q t m = Some t' -> ttime t' = ttime t.
Proof. unfold piled. destruct m; [congruence|]. destruct (existsb _ _); [|discriminate]. intros E. injection E as <-. reflexivity. Qed.
Lemma add64 a b r : c_add64 a b = Ok r -> r = a + b.
Proof. unfold c_add64. destruct (in_int64b _); congruence. Qed.

Lemma inv_step s o s' : Inv s -> step c s o = Some s' -> Inv s'.
Proof.
  intros IV E. destruct o as [d|d o m|t| | | |k|k d o m|].
  - assert (X : 0 <= d /\ s' = mkFed (f_now s + d) (f_current s) (f_queue s) (f_phase s) (f_log s)).
    { cbn [step] in E. destruct (f_phase s); try discriminate; destruct (Z.leb_spec 0 d); try discriminate; split; try assumption; congruence. }
    destruct X as [D ->]. destruct IV as [A B C R L]. constructor; unfold nets, at_work in *; cbn [f_now f_current f_queue f_phase f_log] in *; auto.
    + intros t T. specialize (C t T). lia.
    + destruct (f_phase s); auto. destruct R. split; [assumption|lia].
  - assert (X : (0 <= d /\ 0 <= o /\ c_min c <= d + o) /\ exists t, ttime t = f_now s + d /\ s' = put (mkEvent t o true) s).
    { cbn [step] in E. destruct (f_phase s); try discriminate; destruct ((0 <=? d) && (0 <=? o) && (c_min c <=? d + o)) eqn:G; try discriminate; (split; [lia|]); destruct (piled _ _ _) as [t1|] eqn:P; try discriminate; exists t1; apply piled_time in P; (split; [exact P|congruence]). }
    destruct X as [(D1 & D2 & D3) (t & T & ->)]. apply inv_put; [exact IV|exact D2|]. intros _ x X. cbn [e_tag e_slack]. pose proof (v_now s IV x X). lia.
  - assert (X : s' = put (mkEvent t 0 false) s) by (cbn [step] in E; destruct (f_phase s); congruence). subst s'. apply inv_put; [exact IV|cbn; lia|discriminate].
  - cbn [step] in E. destruct (f_phase s) eqn:PH; try discriminate. injection E as <-. unfold pass. unfold bounded_NET. destruct (c_add64 (f_now s) (c_min c)) as [b|] eqn:AD; cbn [bind]; [|apply inv_set; [exact IV|intros e []|exact Logic.I]].
    apply add64 in AD. assert (W : forall e, ~ at_work s e) by (intros e; unfold at_work; rewrite PH; tauto).
    destruct (Z.ltb_spec b (ttime (next_tag (f_queue s)))) as [BL|BL].
    + cbn [ttime tmicro]. destruct (c_add64 (b - 1) (c_interval c)) as [x|] eqn:AD2; [|apply inv_set; [exact IV|intros e []|exact Logic.I]]. apply add64 in AD2.
      apply inv_put; [exact IV|cbn; lia|]. intros _ y Y. cbn [e_tag e_slack ttime]. pose proof (v_now s IV y Y). lia.
    + apply inv_set; [apply inv_net; [exact IV|exact W|lia]|intros e []|]. cbn [say f_queue f_now]. split; [apply tag_le_refl|lia].
  - cbn [step] in E. cbv zeta in E. destruct (f_phase s) as [|t|l| |] eqn:PH; try discriminate. destruct (tag_compare _ _ =? 0); [injection E as <-; exact IV|]. injection E as <-.
    pose proof (v_ready s IV) as R. rewrite PH in R. destruct R as [R1 R2]. apply inv_net; [exact IV|intros e; unfold at_work; rewrite PH; tauto|]. pose proof (le_time _ _ R1). lia.
  - cbn [step] in E. cbv zeta in E. destruct (f_phase s) as [|t|l| |] eqn:PH; try discriminate. destruct (_ || _); [|discriminate]. destruct (_ <? 0); [|injection E as <-; apply inv_set; [exact IV|intros e []|exact Logic.I]].
    injection E as <-. destruct IV as [A B C R L]. constructor; unfold nets, at_work in *; cbn [f_now f_current f_queue f_phase f_log] in *; auto.
    + intros e [I|I]; apply filter_In in I as [I _]; auto.
    + intros x e X [I|I] LO; apply filter_In in I as [I _]; auto.
    + intros e I. apply filter_In in I as [_ I]. apply has_tag_eq, I.
  - cbn [step] in E. destruct (f_phase s) as [|t|l| |] eqn:PH; try discriminate. destruct (nth_error l k) as [e|] eqn:N; [|discriminate]. apply nth_error_In in N. destruct (Z.leb_spec (e_slack e) 0) as [SL|]; [|discriminate]. injection E as <-.
    assert (I : at_work s e) by (unfold at_work; rewrite PH; exact N). pose proof (v_ready s IV) as R. rewrite PH in R. pose proof (R e N) as T. pose proof (fun t => v_queue s IV t e) as V.
    destruct IV as [A B C R' L]. constructor; unfold nets, at_work in *; cbn [say f_now f_current f_queue f_phase f_log In] in *; auto.
    + intros t x [X|X]; [discriminate|apply B, X].
    + intros t [X|X]; [discriminate|apply C, X].
    + apply promises_out; [exact L|]. intros LO t X. unfold same_time_or_later. specialize (V t X (or_intror I) LO). rewrite T in V. lia.
  - cbn [step] in E. destruct (f_phase s) as [|t|l| |] eqn:PH; try discriminate. destruct (nth_error l k) as [e|] eqn:N; [|discriminate]. apply nth_error_In in N.
    destruct ((0 <=? d) && (0 <=? o) && (e_slack e <=? d + o)) eqn:G; [|discriminate]. destruct (piled _ _ m) as [t|] eqn:P; [|discriminate]. injection E as <-. apply piled_time in P.
    assert (I : at_work s e) by (unfold at_work; rewrite PH; exact N). pose proof (v_ready s IV) as R. rewrite PH in R. pose proof (R e N) as T.
    apply inv_put; [exact IV|cbn; lia|]. cbn [e_local e_tag e_slack]. intros LO x X. pose proof (v_queue s IV x e X (or_intror I) LO) as V. rewrite T in V. rewrite P. destruct (Z.eqb_spec d 0); cbn [ttime]; lia.
  - cbn [step] in E. destruct (f_phase s) as [|t|l| |] eqn:PH; try discriminate. injection E as <-. apply inv_set; [exact IV|intros e []|exact Logic.I].
Qed.
Lemma inv_run : forall l s, Inv s -> Inv (run c s l).
Proof. induction l as [|o l IH]; intros s I; cbn [run]; [exact I|]. destruct (step c s o) as [s'|] eqn:E; [|apply IH, I]. apply IH, (inv_step s o s' I E). Qed.
Lemma inv_init now cur q : fresh q -> Inv (init now cur q).
Proof.
  intros F. unfold fresh in F. rewrite Forall_forall in F. constructor; unfold nets, at_work; cbn [init f_now f_current f_queue f_phase f_log In]; try tauto; [|apply promises_nil]. intros e [I|[]]. apply F, I.
Qed.
Lemma now_step s o s' : step c s o = Some s' -> f_now s <= f_now s'.
Proof.
  intros E. destruct o as [d|d o m|t| | | |k|k d o m|]; cbn [step] in E; cbv zeta in E; destruct (f_phase s); try discriminate;
    repeat (match type of E with context [if ?b then _ else _] => destruct b eqn:? | context [match ?b with _ => _ end] => destruct b eqn:? end; try discriminate); injection E as <-; cbn [put say set_phase f_now]; try lia.
  unfold pass. destruct (bounded_NET _ _ _) as [[b|]|]; try (cbn [set_phase say f_now]; lia). destruct (c_add64 _ _); cbn [set_phase put f_now]; lia.
Qed.
Lemma now_run : forall l s, f_now s <= f_now (run c s l).
Proof. induction l as [|o l IH]; intros s; cbn [run]; [lia|]. destruct (step c s o) as [s'|] eqn:E; [|apply IH]. pose proof (now_step s o s' E). specialize (IH s'). lia. Qed.

(** ** Microsteps, without messages *)
Definition pred (t : tag) : tag := mkTag (ttime t) (tmicro t - 1).
Record InvM (s : fed) : Prop := {
  m_current : 0 <= tmicro (f_current s);
  m_queue : forall e, In e (f_queue s) -> 0 <= tmicro (e_tag e) /\ (0 < tmicro (e_tag e) -> tag_le (pred (e_tag e)) (f_current s) \/ exists x, In x (f_queue s) /\ e_tag x = pred (e_tag e));
  m_nets : forall t, nets s t -> 0 < tmicro t -> match f_phase s with Working _ => tag_lt (pred t) (f_current s) | _ => tag_le (pred t) (f_current s) end;
  m_log : promises not_earlier (f_log s) }.
Lemma invm_put s e : InvM s -> 0 <= tmicro (e_tag e) -> (0 < tmicro (e_tag e) -> tag_le (pred (e_tag e)) (f_current s) \/ exists x, In x (f_queue s) /\ e_tag x = pred (e_tag e)) -> InvM (put e s).
Proof.
  intros [A B C D] Z P. constructor; unfold nets in *; cbn [put f_now f_current f_queue f_phase f_log In] in *; auto.
  intros x [<-|I].
  - split; [exact Z|]. intros L. destruct (P L) as [?|(y & Y & E)]; [left; assumption|right; exists y; tauto].
  - destruct (B x I) as [B1 B2]. split; [exact B1|]. intros L. destruct (B2 L) as [?|(y & Y & E)]; [left; assumption|right; exists y; tauto].
Qed.
Lemma invm_set s p : InvM s -> (match p with Working _ => False | _ => True end) -> InvM (set_phase p s).
Proof.
  intros [A B C D] P. constructor; unfold nets in *; cbn [set_phase f_now f_current f_queue f_phase f_log] in *; auto.
  intros t T L. specialize (C t T L). destruct p; [| |destruct P| |]; destruct (f_phase s); try exact C; apply tag_lt_le, C.
Qed.
Lemma invm_net s : InvM s -> match f_phase s with Working _ => False | _ => True end -> next_tag (f_queue s) <> FOREVER_TAG -> InvM (say (SNet (next_tag (f_queue s))) s).
Proof.
  intros [A B C D] W NF. constructor; unfold nets in *; cbn [say f_now f_current f_queue f_phase f_log In] in *; auto; [|apply promises_net, D].
  intros t [E|T] L; [injection E as <-|exact (C t T L)]. destruct (next_in (f_queue s)) as [N|(e & I & E)]; [contradiction|]. destruct (B e I) as [_ B2]. rewrite E in B2.
  assert (X : tag_le (pred (next_tag (f_queue s))) (f_current s)).
  { destruct (B2 L) as [?|(x & X & EX)]; [assumption|]. exfalso. pose proof (next_le _ x X) as N. rewrite EX in N. unfold tag_le, pred in N. cbn in N. lia. }
  destruct (f_phase s); try exact X. destruct W.
Qed.
Lemma piled_micro q t m t' : 0 <= tmicro t -> piled q t m = Some t' -> t' = t \/ (0 <= tmicro t' /\ exists x, In x q /\ e_tag x = pred t').
Proof.
  intros Z. unfold piled. destruct m as [|m]; [left; congruence|]. destruct (existsb _ _) eqn:EX; [|discriminate]. intros E. right. injection E as <-. apply existsb_exists in EX as (x & X & H). apply has_tag_eq in H. split; [cbn; lia|]. exists x. split; [exact X|]. rewrite H. unfold pred. cbn [ttime tmicro]. f_equal. lia.
Qed.
Lemma invm_step s o s' : Inv s -> InvM s -> clock_ok c s -> no_message o -> step c s o = Some s' -> InvM s'.
Proof.
  intros IV M CK NM E. unfold clock_ok in CK. assert (NF : ttime (next_tag (f_queue s)) <= f_now s + c_min c -> next_tag (f_queue s) <> FOREVER_TAG) by (intros L X; rewrite X in L; unfold FOREVER_TAG, FOREVER in L; cbn in L; lia).
  destruct o as [d|d o m|t| | | |k|k d o m|]; [| |destruct NM|..].
  - assert (X : s' = mkFed (f_now s + d) (f_current s) (f_queue s) (f_phase s) (f_log s)).
    { cbn [step] in E. destruct (f_phase s); try discriminate; destruct (Z.leb_spec 0 d); try discriminate; congruence. }
    subst s'. destruct M. constructor; assumption.
  - assert (X : exists t, piled (f_queue s) (mkTag (f_now s + d) 0) m = Some t /\ s' = put (mkEvent t o true) s).
    { cbn [step] in E. destruct (f_phase s); try discriminate; destruct ((0 <=? d) && (0 <=? o) && (c_min c <=? d + o)) eqn:G; try discriminate; destruct (piled _ _ _) as [t1|] eqn:P; try discriminate; exists t1; (split; [reflexivity|congruence]). }
    destruct X as (t & P & ->). apply piled_micro in P as [->|[Z P]]; [|apply invm_put; cbn [e_tag]; auto|cbn; lia]. apply invm_put; cbn [e_tag tmicro]; [exact M|lia|lia].
  - cbn [step] in E. destruct (f_phase s) eqn:PH; try discriminate. injection E as <-. unfold pass. unfold bounded_NET. destruct (c_add64 (f_now s) (c_min c)) as [b|] eqn:AD; cbn [bind]; [|apply invm_set; [exact M|exact Logic.I]].
    apply add64 in AD. destruct (Z.ltb_spec b (ttime (next_tag (f_queue s)))) as [BL|BL].
    + cbn [ttime tmicro]. destruct (c_add64 (b - 1) (c_interval c)) as [x|] eqn:AD2; [|apply invm_set; [exact M|exact Logic.I]]. apply invm_put; cbn [e_tag tmicro]; [exact M|lia|lia].
    + apply invm_set; [|exact Logic.I]. apply invm_net; [exact M|rewrite PH; exact Logic.I|apply NF; lia].
  - cbn [step] in E. cbv zeta in E. destruct (f_phase s) as [|t|l| |] eqn:PH; try discriminate. destruct (tag_compare _ _ =? 0); [injection E as <-; exact M|]. injection E as <-.
    pose proof (v_ready s IV) as R. rewrite PH in R. destruct R as [R1 R2]. apply invm_net; [exact M|rewrite PH; exact Logic.I|]. apply NF. pose proof (le_time _ _ R1). lia.
  - cbn [step] in E. cbv zeta in E. destruct (f_phase s) as [|t|l| |] eqn:PH; try discriminate. destruct (_ || _); [|discriminate]. destruct (Z.ltb_spec (tag_compare (f_current s) (next_tag (f_queue s))) 0) as [LT|]; [|injection E as <-; apply invm_set; [exact M|exact Logic.I]].
    injection E as <-. assert (LT' : tag_lt (f_current s) (next_tag (f_queue s))) by (apply tag_compare_lt; destruct (tag_compare_range (f_current s) (next_tag (f_queue s))) as [?|[?|?]]; lia).
    destruct M as [A B C D]. constructor; unfold nets in *; cbn [f_now f_current f_queue f_phase f_log] in *; auto.
    + destruct (next_in (f_queue s)) as [N|(e & I & N)]; [rewrite N; unfold FOREVER_TAG, FOREVER_MICROSTEP, UINT_MAX; cbn; lia|]. rewrite <- N. apply (B e I).
    + intros e I. apply filter_In in I as [I NE]. destruct (B e I) as [B1 B2]. split; [exact B1|]. intros L. destruct (B2 L) as [P|(x & X & P)]; [left; apply tag_lt_le; exact (tag_le_lt_trans _ _ _ P LT')|].
      destruct (has_tag (next_tag (f_queue s)) x) eqn:HT; [left; apply has_tag_eq in HT; rewrite <- P, HT; apply tag_le_refl|]. right. exists x. split; [apply filter_In; split; [exact X|rewrite HT; reflexivity]|exact P].
    + intros x X L. specialize (C x X L). rewrite PH in C. exact (tag_le_lt_trans _ _ _ C LT').
  - pose proof E as E0. cbn [step] in E. destruct (f_phase s) as [|t|l| |] eqn:PH; try discriminate. destruct (nth_error l k) as [e|] eqn:N; [|discriminate]. apply nth_error_In in N. destruct (Z.leb_spec (e_slack e) 0) as [SL|]; [|discriminate]. injection E as <-.
    assert (I : at_work s e) by (unfold at_work; rewrite PH; exact N). pose proof (v_ready s IV) as R. rewrite PH in R. pose proof (R e N) as T. pose proof (fun t => v_queue s IV t e) as V.
    destruct M as [A B C D]. constructor; unfold nets in *; cbn [say f_now f_current f_queue f_phase f_log In] in *; auto.
    + intros t [X|X]; [discriminate|apply C, X].
    + apply promises_out; [exact D|]. intros LO t X. unfold not_earlier. specialize (V t X (or_intror I) LO). rewrite T in V. destruct (Z_le_gt_dec (tmicro t) 0) as [Z|Z].
      * unfold tag_le. lia.
      * specialize (C t X ltac:(lia)). rewrite PH in C. unfold tag_lt, pred in C. cbn [ttime tmicro] in C. unfold tag_le. lia.
  - cbn [step] in E. destruct (f_phase s) as [|t|l| |] eqn:PH; try discriminate. destruct (nth_error l k) as [e|] eqn:N; [|discriminate].
    destruct ((0 <=? d) && (0 <=? o) && (e_slack e <=? d + o)) eqn:G; [|discriminate]. destruct (piled _ _ m) as [t|] eqn:P; [|discriminate]. injection E as <-. pose proof (m_current s M) as MC.
    apply piled_micro in P; [|destruct (d =? 0); cbn; lia]. destruct P as [->|[Z P]]; [|apply invm_put; cbn [e_tag]; auto]. apply invm_put; cbn [e_tag]; [exact M|destruct (d =? 0); cbn; lia|].
    destruct (d =? 0); cbn [tmicro]; [|lia]. intros _. left. unfold pred, tag_le. cbn. lia.
  - cbn [step] in E. destruct (f_phase s) as [|t|l| |] eqn:PH; try discriminate. injection E as <-. apply invm_set; [exact M|exact Logic.I].
Qed.
Lemma invm_run : forall l s, Inv s -> InvM s -> Forall no_message l -> clock_ok c (run c s l) -> InvM (run c s l).
Proof.
  induction l as [|o l IH]; intros s I M F CK; cbn [run] in *; [exact M|]. inversion F as [|? ? NM F']; subst. destruct (step c s o) as [s'|] eqn:E; [|apply IH; assumption].
  apply IH; [exact (inv_step s o s' I E)| |exact F'|exact CK]. apply (invm_step s o s' I M); [|exact NM|exact E]. unfold clock_ok in *. pose proof (now_run l s') as N. pose proof (now_step s o s' E). lia.
Qed.
Lemma invm_init now cur q : fresh q -> 0 <= tmicro cur -> InvM (init now cur q).
Proof.
  intros F Z. unfold fresh in F. rewrite Forall_forall in F. constructor; unfold nets; cbn [init f_now f_current f_queue f_phase f_log In]; try tauto; [|apply promises_nil]. intros e I. destruct (F e I) as [_ M]. rewrite M. split; lia.
Qed.

(** ** No overflow *)
Lemma def_step s o s' : 0 <= f_now s -> clock_ok c s -> step c s o = Some s' -> f_phase s <> Undefined -> f_phase s' <> Undefined.
Proof.
  intros Z CK E N. unfold clock_ok in CK. destruct o as [d|d o m|t| | | |k|k d o m|]; cbn [step] in E; cbv zeta in E; destruct (f_phase s) as [|t0|l| |] eqn:PH; try discriminate;
    repeat (match type of E with context [if ?b then _ else _] => destruct b eqn:? | context [match ?b with _ => _ end] => destruct b eqn:? end; try discriminate); injection E as <-; cbn [put say set_phase f_phase]; try congruence.
  unfold pass, bounded_NET. unfold c_add64 at 1. replace (in_int64b (f_now s + c_min c)) with true by (symmetry; apply in_int64b_spec; unfold in_int64, LLONG_MIN, LLONG_MAX in *; lia). cbn [bind].
  destruct (_ <? _); [|cbn; discriminate]. cbn [ttime tmicro]. unfold c_add64. replace (in_int64b (f_now s + c_min c - 1 + c_interval c)) with true by (symmetry; apply in_int64b_spec; unfold in_int64, LLONG_MIN, LLONG_MAX in *; lia). cbn [put f_phase]. congruence.
Qed.
Lemma def_run : forall l s, 0 <= f_now s -> clock_ok c (run c s l) -> f_phase s <> Undefined -> f_phase (run c s l) <> Undefined.
Proof.
  induction l as [|o l IH]; intros s Z CK N; cbn [run] in *; [exact N|]. destruct (step c s o) as [s'|] eqn:E; [|apply IH; assumption]. pose proof (now_step s o s' E). apply IH; [lia|exact CK|]. apply (def_step s o s'); auto. unfold clock_ok in *. pose proof (now_run l s'). lia.
Qed.

(** ** The promise is renewed *)
Lemma env_step s o s' : environment o -> step c s o = Some s' -> f_phase s' = f_phase s /\ f_log s' = f_log s /\ tag_le (next_tag (f_queue s')) (next_tag (f_queue s)) /\ (ticks o -> f_queue s' = f_queue s).
Proof.
  intros EN E. destruct o as [d|d o m|t| | | |k|k d o m|]; try destruct EN; cbn [step] in E; destruct (f_phase s) as [|t0|l| |] eqn:PH; try discriminate;
    repeat (match type of E with context [if ?b then _ else _] => destruct b eqn:? | context [match ?b with _ => _ end] => destruct b eqn:? end; try discriminate); injection E as <-; cbn [put f_phase f_log f_queue ticks]; (split; [first [exact PH|reflexivity]|split; [reflexivity|split; [first [apply next_cons|apply tag_le_refl]|try tauto; try reflexivity]]]).
Qed.
Lemma env_run : forall l s, Forall environment l -> f_phase (run c s l) = f_phase s /\ f_log (run c s l) = f_log s /\ tag_le (next_tag (f_queue (run c s l))) (next_tag (f_queue s)) /\ (Forall ticks l -> f_queue (run c s l) = f_queue s).
Proof.
  induction l as [|o l IH]; intros s F; cbn [run]; [repeat split; apply tag_le_refl|]. inversion F as [|? ? EO F']; subst. destruct (step c s o) as [s'|] eqn:E.
  - destruct (env_step s o s' EO E) as (A & B & C & D). destruct (IH s' F') as (A' & B' & C' & D'). repeat split; try congruence; [exact (tag_le_trans _ _ _ C' C)|]. intros T. inversion T; subst. rewrite D', D by assumption. reflexivity.
  - destruct (IH s F') as (A' & B' & C' & D'). repeat split; auto. intros T. inversion T; subst. auto.
Qed.
Lemma pass_sends s : 0 <= f_now s -> clock_ok c s -> ttime (next_tag (f_queue s)) <= f_now s + c_min c -> pass c s = set_phase (Ready (next_tag (f_queue s))) (say (SNet (next_tag (f_queue s))) s).
Proof.
  intros Z CK L. unfold clock_ok in CK. unfold pass, bounded_NET. unfold c_add64 at 1. replace (in_int64b (f_now s + c_min c)) with true by (symmetry; apply in_int64b_spec; unfold in_int64, LLONG_MIN, LLONG_MAX in *; lia). cbn [bind].
  destruct (Z.ltb_spec (f_now s + c_min c) (ttime (next_tag (f_queue s)))); [lia|reflexivity].
Qed.
Lemma pass_waits s : 0 <= f_now s -> clock_ok c s -> f_now s + c_min c < ttime (next_tag (f_queue s)) -> pass c s = put (mkEvent (mkTag (f_now s + c_min c - 1 + c_interval c) 0) 0 true) s.
Proof.
  intros Z CK L. unfold clock_ok in CK. unfold pass, bounded_NET. unfold c_add64 at 1. replace (in_int64b (f_now s + c_min c)) with true by (symmetry; apply in_int64b_spec; unfold in_int64, LLONG_MIN, LLONG_MAX in *; lia). cbn [bind].
  destruct (Z.ltb_spec (f_now s + c_min c) (ttime (next_tag (f_queue s)))); [|lia]. cbn [ttime tmicro]. unfold c_add64. replace (in_int64b (f_now s + c_min c - 1 + c_interval c)) with true by (symmetry; apply in_int64b_spec; unfold in_int64, LLONG_MIN, LLONG_MAX in *; lia). reflexivity.
Qed.
End Run.
