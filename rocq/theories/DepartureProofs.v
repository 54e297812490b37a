From Verif Require Import Base Tag TagSpec TagProofs Pqueue PqueueProofs RtiDelays Rti RtiProofs Departure DepartureSpec.
Open Scope Z_scope.

Section Released.
Variable tp : topo.
Variable start : Z.
Hypothesis Hstart : tag_le (mkTag start 0) FOREVER_TAG.
Notation F := FOREVER_TAG.
Variable yes : nat -> bool.
Hypothesis Hyes : forall i, yes i = true.
Definition good (e : nat) (n : rnode) : Prop :=
  tag_le (r_next n) F /\ tag_le (r_ptag n) F /\ tag_le (r_granted n) F /\ Forall (fun t => tag_le t F) (r_transit n) /\
  (tp_up tp e <> [] -> r_granted n = F -> In (MTag F) (r_sent n)).
Definition Pd (c : nat -> bool) (rel : nat -> Prop) (s : rti) : Prop :=
  forall e, r_connected (s e) = c e /\ good e (s e) /\ (rel e -> In (MTag F) (r_sent (s e))).
Section Keep.
Variable c : nat -> bool.
Variable rel : nat -> Prop.
Notation P := (Pd c rel).
Lemma keep_on s e f : P s -> (r_connected (s e) = c e -> good e (s e) -> (rel e -> In (MTag F) (r_sent (s e))) ->
  r_connected (f (s e)) = c e /\ good e (f (s e)) /\ (rel e -> In (MTag F) (r_sent (f (s e))))) -> P (on s e f).
Proof. intros H K e'. destruct (Nat.eq_dec e e') as [<-|ne]; [rewrite on_same; apply K; apply H|rewrite on_other by exact ne; apply H]. Qed.
Lemma keep_delays s e x : P s -> P (on s e (set_delays x)).
Proof. intros H. apply keep_on; [exact H|]. intros A B D. split; [exact A|]. split; [exact B|exact D]. Qed.
Lemma keep_next s e t : P s -> tag_le t F -> P (on s e (set_next t)).
Proof. intros H L. apply keep_on; [exact H|]. intros A (B1 & B2 & B3 & B4 & B5) D. split; [exact A|]. split; [|exact D]. split; [exact L|]. split; [exact B2|]. split; [exact B3|]. split; [exact B4|exact B5]. Qed.
Lemma keep_completed s e t : P s -> P (on s e (set_completed t)).
Proof. intros H. apply keep_on; [exact H|]. intros A B D. split; [exact A|]. split; [exact B|exact D]. Qed.
Lemma keep_sent s e m : P s -> P (on s e (add_sent m)).
Proof.
  intros H. apply keep_on; [exact H|]. intros A (B1 & B2 & B3 & B4 & B5) D. split; [exact A|]. split; [|intros R; cbn [r_sent add_sent]; apply in_or_app; left; apply D, R].
  split; [exact B1|]. split; [exact B2|]. split; [exact B3|]. split; [exact B4|]. intros U G. cbn [r_sent add_sent]. apply in_or_app. left. apply B5; assumption.
Qed.
Lemma keep_transit s e l : P s -> Forall (fun t => tag_le t F) l -> P (on s e (set_transit l)).
Proof. intros H L. apply keep_on; [exact H|]. intros A (B1 & B2 & B3 & B4 & B5) D. split; [exact A|]. split; [|exact D]. split; [exact B1|]. split; [exact B2|]. split; [exact B3|]. split; [exact L|exact B5]. Qed.
Lemma keep_tag s e t : P s -> tag_le t F -> P (notify_tag yes s e t).
Proof.
  intros H L. unfold notify_tag. destruct (_ || _ || _); [exact H|]. rewrite Hyes. apply keep_on; [exact H|]. intros A (B1 & B2 & B3 & B4 & B5) D. split; [exact A|].
  split; [|intros R; cbn; apply in_or_app; left; apply D, R]. split; [exact B1|]. split; [exact B2|]. split; [exact L|]. split; [exact B4|]. intros _ E. cbn in *. subst t. apply in_or_app. right. left. reflexivity.
Qed.
Lemma keep_ptag1 s e t : P s -> tag_le t F -> P (on s e (fun n => set_ptag t (add_sent (MPtag t) n))).
Proof.
  intros H L. apply keep_on; [exact H|]. intros A (B1 & B2 & B3 & B4 & B5) D. split; [exact A|]. split; [|intros R; cbn; apply in_or_app; left; apply D, R].
  split; [exact B1|]. split; [exact L|]. split; [exact B3|]. split; [exact B4|]. intros U G. cbn. apply in_or_app. left. apply B5; assumption.
Qed.
Let Pdel : forall s e, P s -> r_delays (s e) = None ->
  P (on s e (set_delays (Some (match compute_delays tp (fun i => r_connected (s i)) e with Delays table zdc _ => (table, zdc) | _ => ([], false) end)))).
Proof. intros s e H _. apply keep_delays, H. Qed.
Let Pst : forall s k, P s -> r_next (s k) = NEVER_TAG -> P (on s k (set_next (mkTag start 0))).
Proof. intros s k H _. apply keep_next; assumption. Qed.
Lemma keep_ptag fuel : forall s e t, P s -> tag_le t F -> P (notify_ptag tp start yes fuel s e t).
Proof.
  induction fuel as [|fuel IH]; intros s e t H L; [exact H|]. cbn [notify_ptag]. destruct (_ || _ || _); [exact H|]. rewrite Hyes.
  apply fold_left_preserves; [|apply keep_ptag1; assumption]. intros a (k & d) _ K. cbn [fst]. destruct (r_connected (a k)); [|exact K].
  pose proof (eimt_P tp start P Pdel Pst a k K) as K1. destruct (eimt tp start a k) as [s1 x1]. cbn [fst] in K1. pose proof (eimt_strict_P tp start P Pdel Pst s1 k K1) as K2.
  destruct (eimt_strict tp start s1 k) as [s2 x2]. cbn [fst] in K2. destruct (0 <? _); [apply keep_tag; assumption|]. destruct (_ && _); [apply IH; assumption|exact K2].
Qed.
Lemma min_completed_le s : forall l m, tag_le m F -> tag_le (min_completed s l m) F.
Proof.
  induction l as [|(k & d) l IH]; intros m L; [exact L|]. cbn [min_completed]. destruct (r_connected (s k)); [|apply IH, L]. apply IH. destruct (_ <? 0) eqn:C; [|exact L].
  apply cmp_lt0 in C. eapply tag_le_trans; [apply tag_lt_le, C|exact L].
Qed.
Lemma grant_keep s e : P s -> P (fst (grant_if_safe tp start s e)) /\ forall t b, snd (grant_if_safe tp start s e) = Some (t, b) -> tag_le t F.
Proof.
  intros H. split; [apply (grant_if_safe_P tp start P Pdel Pst), H|]. intros t b. unfold grant_if_safe. destruct (_ && _).
  - cbn [snd]. intros E. assert (t = min_completed s (tp_up tp e) F) as -> by congruence. apply min_completed_le, tag_le_refl.
  - pose proof (eimt_P tp start P Pdel Pst s e H) as K1. destruct (eimt tp start s e) as [s1 x1]. cbn [fst] in K1. pose proof (eimt_strict_P tp start P Pdel Pst s1 e K1) as K2.
    destruct (eimt_strict tp start s1 e) as [s2 x2]. cbn [fst] in K2. pose proof (K2 e) as (_ & (B & _) & _). destruct (_ && _ && _ && _); [cbn [snd]; intros E; assert (t = r_next (s2 e)) as -> by congruence; exact B|].
    destruct (_ =? 0); [|discriminate]. destruct (node_delays tp s2 e) as [s3 x3]. destruct (_ && _ && _ && _); [cbn [snd]; intros E; assert (t = r_next (s2 e)) as -> by congruence; exact B|discriminate].
Qed.
Lemma keep_safe s e : P s -> P (notify_if_safe tp start yes s e).
Proof.
  intros H. unfold notify_if_safe. destruct (grant_keep s e H) as [K L]. destruct (grant_if_safe tp start s e) as [s1 [(t & b)|]]; [|exact K]. cbn [fst snd] in *. specialize (L t b eq_refl).
  destruct (_ =? 0); [exact K|]. destruct b; [apply keep_ptag; assumption|apply keep_tag; assumption].
Qed.
Lemma keep_down s e : P s -> P (notify_downstream tp start yes s e).
Proof. intros H. apply (notify_downstream_P tp start P); [exact keep_safe|exact H]. Qed.
Lemma keep_update s e t : P s -> tag_le t F -> P (update_fed_next tp start yes s e t).
Proof.
  intros H L. unfold update_fed_next. set (m := if _ <? 0 then _ else _). assert (M : tag_le m F).
  { unfold m. destruct (_ <? 0); [|exact L]. destruct (peek_in (r_transit (s e))) as [E|I]; [rewrite E; apply tag_le_refl|]. destruct (H e) as (_ & (_ & _ & _ & B & _) & _). rewrite Forall_forall in B. apply B, I. }
  apply (update_next_P tp start P); [exact keep_safe|apply keep_next; assumption|]. intros U. apply keep_on; [apply keep_next; assumption|]. rewrite on_same.
  intros A (B1 & B2 & B3 & B4 & B5) D. split; [exact A|]. split; [|exact D]. split; [exact B1|]. split; [exact B2|]. split; [exact M|]. split; [exact B4|]. intros N. contradiction.
Qed.
Lemma filter_le (f : tag -> bool) l : Forall (fun t => tag_le t F) l -> Forall (fun t => tag_le t F) (filter f l).
Proof. intros H. rewrite Forall_forall in *. intros x I. apply filter_In in I. apply H, I. Qed.
Lemma keep_step s o s' : P s -> tag_in_range o -> (forall i, o <> RResign i) -> rti_step tp start yes s o = Some s' -> P s'.
Proof.
  intros H T NR E. destruct o as [i t|i t|i t|i j t|i j t|i]; cbn [rti_step tag_in_range] in *.
  - assert (E' : s' = if r_connected (s i) then update_fed_next tp start yes s i t else s) by congruence. subst s'. destruct (r_connected (s i)); [apply keep_update; assumption|exact H].
  - assert (E' : s' = if r_connected (s i) then tag_complete tp start yes s i t else s) by congruence. subst s'. destruct (r_connected (s i)); [|exact H]. apply (tag_complete_P tp start P); [exact keep_safe|apply keep_completed, H].
  - injection E as <-. destruct (H i) as (_ & (_ & _ & _ & B & _) & _). apply (keep_transit s i (transit_remove t (r_transit (s i))) H). apply filter_le, B.
  - destruct (r_connected (s i)); [|injection E as <-; exact H]. unfold forward in E. destruct (negb (r_connected (s j))); [injection E as <-; exact H|]. rewrite Hyes in E. cbn [negb] in E.
    set (s1 := if tag_compare (r_completed (on s j (add_sent (MMsg t)) j)) t <? 0 then _ else _) in E. assert (K : P s1).
    { unfold s1. destruct (_ <? 0); [|apply keep_sent, H]. pose proof (keep_sent s j (MMsg t) H) as K0. apply (keep_transit (on s j (add_sent (MMsg t))) j (transit_insert t (r_transit (on s j (add_sent (MMsg t)) j))) K0).
      destruct (K0 j) as (_ & (_ & _ & _ & B & _) & _). unfold transit_insert. destruct (existsb _ _); [exact B|constructor; [exact T|exact B]]. }
    assert (E' : s' = if tag_compare t (r_next (s1 j)) <? 0 then update_fed_next tp start yes s1 j t else s1) by congruence. clear E. subst s'. clearbody s1. destruct (tag_compare t (r_next (s1 j)) <? 0); [apply keep_update; assumption|exact K].
  - destruct (_ && _); [|injection E as <-; exact H]. rewrite Hyes in E. assert (E' : s' = on s j (add_sent (MAbsent t))) by congruence. subst s'. apply keep_sent, H.
  - destruct (NR i eq_refl).
Qed.
End Keep.

(** A federate all of whose upstream federates have left is released when it is looked at. *)
Lemma safe_releases c rel s j : Pd c rel s -> tp_up tp j <> [] -> c j = true -> (forall k d, In (k, d) (tp_up tp j) -> c k = false) ->
  In (MTag F) (r_sent (notify_if_safe tp start yes s j j)).
Proof.
  intros H U C D. assert (M : forall l m, (forall k d, In (k, d) l -> c k = false) -> min_completed s l m = m).
  { induction l as [|(k & d) l IH]; intros m Dl; [reflexivity|]. cbn [min_completed]. destruct (H k) as (Ck & _). rewrite Ck, (Dl k d (or_introl eq_refl)). apply IH. intros k' d' I. apply (Dl k' d'). right. exact I. }
  destruct (H j) as (Cj & (B1 & B2 & B3 & B4 & B5) & _). destruct (0 <? tag_compare F (r_granted (s j))) eqn:G.
  - unfold notify_if_safe, grant_if_safe. rewrite M by exact D. rewrite G. assert (N : (0 <=? tag_compare F (r_next (s j))) = true) by (apply cmp_ge0, B1). rewrite N. cbn [andb].
    change (tag_compare F NEVER_TAG =? 0) with false. cbv iota. unfold notify_tag. rewrite Cj, C. cbn [negb orb]. apply cmp_gt0 in G.
    assert (L1 : (tag_compare F (r_granted (s j)) <=? 0) = false) by (apply cmp_le0_false, G). assert (L2 : (tag_compare F (r_ptag (s j)) <? 0) = false) by (apply cmp_lt0_false, B2).
    rewrite L1, L2. cbn [orb]. rewrite Hyes, on_same. cbn. apply in_or_app. right. left. reflexivity.
  - apply cmp_gt0_false in G. assert (E : r_granted (s j) = F) by (apply tag_le_antisym; assumption).
    assert (H' : Pd c (fun e => e = j) s) by (intros e; destruct (H e) as (A & B & _); split; [exact A|]; split; [exact B|]; intros ->; destruct (H j) as (_ & (_ & _ & _ & _ & B5') & _); apply B5'; assumption).
    destruct (keep_safe c (fun e => e = j) s j H' j) as (_ & _ & R). apply R. reflexivity.
Qed.
Definition orphan_in (c : nat -> bool) (j : nat) : Prop := tp_up tp j <> [] /\ c j = true /\ forall k d, In (k, d) (tp_up tp j) -> c k = false.
Definition Vd (c : nat -> bool) (rel : nat -> Prop) (i : nat) (sv : rti * (nat -> bool)) : Prop :=
  Pd c rel (fst sv) /\ forall j, snd sv j = true -> j = i \/ (orphan_in c j -> In (MTag F) (r_sent (fst sv j))).
Lemma vd_safe c rel i sv j : Vd c rel i sv -> Vd c rel i (notify_if_safe tp start yes (fst sv) j, snd sv).
Proof.
  intros [H V]. split; [apply keep_safe, H|]. cbn [fst snd]. intros k K. destruct (V k K) as [A|A]; [left; exact A|right; intros O; specialize (A O)].
  assert (H' : Pd c (fun e => e = k) (fst sv)) by (intros e; destruct (H e) as (X & Y & _); split; [exact X|]; split; [exact Y|]; intros ->; exact A).
  destruct (keep_safe c (fun e => e = k) (fst sv) j H' k) as (_ & _ & R). apply R. reflexivity.
Qed.
Lemma vd_down c i fuel : forall rel sv e, Vd c rel i sv -> (e = i \/ (orphan_in c e -> In (MTag F) (r_sent (fst sv e)))) -> Vd c rel i (notify_down tp start yes fuel sv e).
Proof.
  induction fuel as [|fuel IH]; intros rel sv e V R; [exact V|]. cbn [notify_down].
  apply (fold_left_preserves (Vd c rel i)).
  - intros sv' j _ V'. destruct (snd sv' j); [exact V'|]. apply IH; [apply vd_safe, V'|]. cbn [fst]. right. intros (U & C & D). destruct V' as [H' _]. apply (safe_releases c rel); assumption.
  - destruct V as [H V]. split; [exact H|]. cbn [fst snd]. intros j J. unfold upd in J. destruct (Nat.eqb_spec j e) as [x|ne]; [rewrite x; exact R|apply V, J].
Qed.
Lemma vd_fold c i fuel rel : forall l sv, Vd c rel i sv ->
  let sv' := fold_left (fun (sv : rti * (nat -> bool)) j => if snd sv j then sv else notify_down tp start yes fuel (notify_if_safe tp start yes (fst sv) j, snd sv) j) l sv in
  Vd c rel i sv' /\ forall j, In j l -> j <> i -> orphan_in c j -> In (MTag F) (r_sent (fst sv' j)).
Proof.
  intros l. revert rel. induction l as [|x l IH]; intros rel sv V; cbv zeta; cbn [fold_left].
  - split; [exact V|intros j []].
  - set (sv1 := if snd sv x then sv else _).
    assert (V1 : Vd c rel i sv1 /\ (x <> i -> orphan_in c x -> In (MTag F) (r_sent (fst sv1 x)))).
    { unfold sv1. destruct (snd sv x) eqn:X; [split; [exact V|]; intros N O; destruct V as [_ V]; destruct (V x X) as [A|A]; [contradiction|apply A, O]|].
      pose proof (vd_safe c rel i sv x V) as V1. assert (R1 : orphan_in c x -> In (MTag F) (r_sent (notify_if_safe tp start yes (fst sv) x x))).
      { intros (U & C & D). destruct V as [H _]. apply (safe_releases c rel); assumption. }
      split; [apply vd_down; [exact V1|right; exact R1]|]. intros _ O. specialize (R1 O).
      assert (V2 : Vd c (fun e => e = x) i (notify_if_safe tp start yes (fst sv) x, snd sv)).
      { destruct V1 as [H1 V1]. split; [|exact V1]. intros e. destruct (H1 e) as (A & B & _). split; [exact A|]. split; [exact B|]. intros ->. exact R1. }
      destruct (vd_down c i fuel (fun e => e = x) _ x V2 (or_intror (fun _ => R1))) as [H2 _]. destruct (H2 x) as (_ & _ & R). apply R. reflexivity. }
    destruct V1 as [V1 R1]. destruct (IH rel sv1 V1) as [V2 R2]. split; [exact V2|]. intros j [<-|I] N O; [|apply R2; assumption].
    assert (V3 : Vd c (fun e => e = x) i sv1).
    { destruct V1 as [H1 V1]. split; [|exact V1]. intros e. destruct (H1 e) as (A & B & _). split; [exact A|]. split; [exact B|]. intros ->. apply R1; assumption. }
    destruct (IH (fun e => e = x) sv1 V3) as [[H4 _] _]. destruct (H4 x) as (_ & _ & R). apply R. reflexivity.
Qed.

Hypothesis Hm : mirrored tp.
Definition Rd (s : rti) : Prop := exists c, Pd c (orphan_in c) s.
Lemma rd_step s o s' : Rd s -> tag_in_range o -> rti_step tp start yes s o = Some s' -> Rd s'.
Proof.
  intros (c & H) T E. destruct o as [i t|i t|i t|i j t|i j t|i] eqn:EO; try (exists c; apply (keep_step c (orphan_in c) s o s' H); rewrite EO; [exact T|intros; discriminate|exact E]).
  cbn [rti_step] in E. destruct (r_connected (s i)) eqn:CI; [|exists c; injection E as <-; exact H].
  set (s1 := on s i (fun n => set_next F (set_connected false n))) in *. assert (E' : s' = notify_downstream tp start yes s1 i) by congruence. subst s'. clear E.
  set (c' := upd c i false). assert (H1 : Pd c' (fun e => orphan_in c e /\ e <> i) s1).
  { intros e. unfold s1, c'. destruct (Nat.eq_dec i e) as [<-|ne].
    - rewrite on_same, upd_eq. destruct (H i) as (_ & (B1 & B2 & B3 & B4 & B5) & _). split; [reflexivity|]. split; [|intros [_ N]; contradiction].
      split; [apply tag_le_refl|]. split; [exact B2|]. split; [exact B3|]. split; [exact B4|exact B5].
    - rewrite on_other by exact ne. rewrite upd_neq by congruence. destruct (H e) as (A & B & R). split; [exact A|]. split; [exact B|]. intros [O _]. apply R, O. }
  exists c'. unfold notify_downstream. cbn [notify_down].
  assert (V : Vd c' (fun e => orphan_in c e /\ e <> i) i (s1, upd (fun _ : nat => false) i true)).
  { split; [exact H1|]. intros j J. cbn [snd] in J. unfold upd in J. destruct (Nat.eqb_spec j i) as [x|ne]; [left; exact x|discriminate]. }
  destruct (vd_fold c' i (tp_n tp) _ (tp_down tp i) _ V) as [[H2 _] R2]. cbn [fst snd] in *. intros e. destruct (H2 e) as (A & B & R). split; [exact A|]. split; [exact B|].
  intros (U & Ce & D). assert (N : e <> i) by (intros ->; unfold c' in Ce; rewrite upd_eq in Ce; discriminate).
  destruct (in_dec Nat.eq_dec i (map fst (tp_up tp e))) as [I|I].
  - apply in_map_iff in I. destruct I as ((k & d) & <- & I). cbn [fst] in *. apply R2; [apply (Hm k d e I)|exact N|]. split; [exact U|]. split; [exact Ce|exact D].
  - apply R. split; [|exact N]. split; [exact U|]. unfold c' in Ce. rewrite upd_neq in Ce by exact N. split; [exact Ce|]. intros k d K. specialize (D k d K). unfold c' in D. rewrite upd_neq in D; [exact D|].
    intros ->. apply I. apply in_map_iff. exists (i, d). split; [reflexivity|exact K].
Qed.
Lemma rd_init : Rd init_rti.
Proof.
  exists (fun _ => true). intros e. split; [reflexivity|]. split.
  - repeat split; try (right; split; [reflexivity|]; cbn; lia); try (left; cbn; reflexivity); try (cbn; discriminate); constructor.
  - intros (U & _ & D). destruct (tp_up tp e) as [|(k & d) l]; [contradiction|]. specialize (D k d (or_introl eq_refl)). discriminate.
Qed.
End Released.

Lemma rd_run tp start (H : tag_le (mkTag start 0) FOREVER_TAG) (M : mirrored tp) : forall l s s', orderly l -> Rd tp s -> dep_run tp start s l = Some s' -> Rd tp s'.
Proof.
  induction l as [|(o & ok) l IH]; intros s s' O R E; cbn [dep_run] in E; [assert (s' = s) as -> by congruence; exact R|]. inversion O as [|? ? [T K] O']; subst. cbn [fst snd] in *.
  destruct o as [o|i]; [|destruct T]. cbn [dep_step] in E. destruct (rti_step tp start ok s o) as [s1|] eqn:E1; [|discriminate].
  apply (IH s1 s' O'); [|exact E]. apply (rd_step tp start H ok K M s o s1 R T E1).
Qed.

(** A federate that is not heard of, whose only upstream federate is gone. *)
Definition still (s0 s : rti) : Prop := r_connected (s 0%nat) = false /\ r_sent (s 1%nat) = r_sent (s0 1%nat).
Lemma still_run tp start s0 : forall l s s', still s0 s -> Forall (fun x => match fst x with DMsg o => sender o = 0%nat | DClosed i => i = 0%nat end) l ->
  dep_run tp start s l = Some s' -> still s0 s'.
Proof.
  induction l as [|(o & ok) l IH]; intros s s' [C R] A E; cbn [dep_run] in E; [injection E as <-; split; assumption|]. inversion A as [|? ? A1 A2]; subst. cbn [fst] in A1.
  destruct (dep_step tp start ok s o) as [s1|] eqn:E1; [|discriminate]. apply (IH s1 s'); [|exact A2|exact E].
  destruct o as [o|i]; cbn [dep_step] in E1.
  - destruct o as [i t|i t|i t|i j t|i j t|i]; cbn [sender] in A1; subst i; cbn [rti_step] in E1; rewrite ?C in E1; cbn [andb] in E1; injection E1 as <-; split; try assumption.
  - subst i. rewrite C in E1. injection E1 as <-. split; assumption.
Qed.
