(** Addresses of the coordinator: property C49. *)
From Verif Require Import Base CText Regex RegexProofs Address ArgsSpec ArgsProps AddressSpec.
From Coq Require Import String.
Open Scope Z_scope.

(** ** Ports. *)
Lemma writes_digits s : s <> [] -> Forall is_dec s -> writes (number s) s.
Proof.
  intros N F. exists (map (fun c => c - 48) s).
  assert (E : s = map (fun d => d + 48) (map (fun c => c - 48) s)).
  { rewrite map_map. rewrite <- (map_id s) at 1. apply map_ext. intros; lia. }
  assert (D : Forall (fun d => 0 <= d <= 9) (map (fun c => c - 48) s)).
  { apply Forall_map. eapply Forall_impl; [|exact F]. unfold is_dec. intros; lia. }
  split; [destruct s; [congruence|discriminate]|]. split; [exact D|]. split; [exact E|].
  rewrite E at 1. apply number_writes. exists (map (fun c => c - 48) s).
  split; [destruct s; [congruence|discriminate]|]. auto.
Qed.
Lemma writes_dec n s : writes n s -> s <> [] /\ Forall is_dec s.
Proof.
  intros (ds & N & F & -> & _). split; [destruct ds; [congruence|discriminate]|]. apply Forall_map. eapply Forall_impl; [|exact F]. unfold is_dec. cbn. intros; lia.
Qed.
Lemma writes_bound n s k : writes n s -> (List.length s <= k)%nat -> 0 <= n < 10 ^ Z.of_nat k.
Proof.
  intros (ds & N & F & -> & ->) L. rewrite map_length in L. pose proof (decimal_bound ds F).
  assert (10 ^ Z.of_nat (List.length ds) <= 10 ^ Z.of_nat k) by (apply Z.pow_le_mono_r; lia). lia.
Qed.
Lemma all_digits_spec s : Forall (fun c => c < 128) s -> exists b, all_digits s = Ok b /\ (b = true <-> Forall is_dec s).
Proof.
  induction 1 as [|c s H F (b & E & IH)]; [exists true; split; [reflexivity|split; auto]|].
  cbn [all_digits]. unfold c_isdigit. replace (c <? 128) with true by lia. cbn [bind]. unfold is_digit.
  destruct ((48 <=? c) && (c <=? 57)) eqn:D.
  - exists b. split; [exact E|]. rewrite IH. split; [intros Hs; constructor; [unfold is_dec; lia|exact Hs]|intros Hs; now inversion Hs].
  - exists false. split; [reflexivity|]. split; [discriminate|]. intros Hs. inversion Hs as [|? ? Hc]; subst. unfold is_dec in Hc. lia.
Qed.

(** C49: a port string of ASCII characters is accepted exactly if it is a decimal
    number of at most five digits, not above 65535. *)
Theorem C49_port s : Forall (fun c => 0 < c < 128) s ->
  exists b, validate_port s = Ok b /\ (b = true <-> exists n, port_text s n).
Proof.
  intros A. unfold validate_port. cbn zeta.
  destruct (Nat.ltb_spec (Nat.min (List.length s) 6) 1) as [L1|L1]; cbn [orb].
  { exists false. split; [reflexivity|]. split; [discriminate|]. intros (n & W & _ & _). apply writes_dec in W. destruct s; [now destruct W|cbn in L1; lia]. }
  destruct (Nat.ltb_spec 5 (Nat.min (List.length s) 6)) as [L2|L2].
  { exists false. split; [reflexivity|]. split; [discriminate|]. intros (n & _ & L & _). lia. }
  replace (Nat.min (List.length s) 6) with (List.length s) by lia. rewrite firstn_all.
  destruct (all_digits_spec s) as (b & E & B); [eapply Forall_impl; [|exact A]; cbn; intros; lia|]. rewrite E. cbn [bind].
  destruct b.
  - assert (F : Forall is_dec s) by (apply B; reflexivity). pose proof (writes_digits s ltac:(destruct s; [cbn in L1; lia|discriminate]) F) as W.
    pose proof (writes_bound _ _ 5 W ltac:(lia)) as Bd. change (10 ^ Z.of_nat 5) with 100000 in Bd.
    unfold atoi. replace (in_int32b (number s)) with true by (unfold in_int32b; lia). cbn [bind].
    eexists. split; [reflexivity|]. split.
    + intros H. exists (number s). split; [exact W|]. split; lia.
    + intros (n & Wn & _ & Hn). apply number_writes in Wn. lia.
  - exists false. split; [reflexivity|]. split; [discriminate|]. intros (n & W & _). apply writes_dec in W. apply B. apply W.
Qed.
Example C49_port_ex : Forall (fun c => 0 < c < 128) (lit "65535") /\ port_text (lit "65535") 65535 /\ validate_port (lit "65536") = Ok false.
Proof.
  split; [cbn; repeat constructor; lia|]. split; [|reflexivity]. split; [|split; [cbn; lia|lia]].
  exists [6; 5; 5; 3; 5]. split; [discriminate|]. split; [repeat constructor; lia|]. split; reflexivity.
Qed.
(** A byte above 127 in a port is undefined behaviour (isdigit of a negative char). *)
Theorem C49_port_byte_refuted : exists s, Forall (fun c => 0 < c < 256) s /\ validate_port s = UB.
Proof. exists [200]. split; [repeat constructor; lia|reflexivity]. Qed.

(** ** Hosts. *)
Lemma class_chr k c : in_class [(k, k)] c = true <-> c = k.
Proof. unfold in_class. cbn. lia. Qed.
Lemma class_digit c : in_class [(48, 57)] c = true <-> is_dec c.
Proof. unfold in_class, is_dec. cbn. lia. Qed.
Lemma class_alnum c : in_class alnum c = true <-> is_alnum c.
Proof. unfold in_class, alnum, is_alnum, is_lower, is_dec. cbn. lia. Qed.
Lemma class_lower c : in_class lower c = true <-> is_lower c.
Proof. unfold in_class, lower, is_lower. cbn. lia. Qed.
Lemma lang_chr k s : lang (chr k) s <-> s = [k].
Proof. unfold chr. rewrite lang_class. split; [intros (c & -> & H); apply class_chr in H; congruence|intros ->; exists k; split; [reflexivity|now apply class_chr]]. Qed.
Lemma lang_digit s : lang digit_ s <-> exists c, s = [c] /\ is_dec c.
Proof. unfold digit_. rewrite lang_class. split; intros (c & -> & H); exists c; (split; [reflexivity|]); now apply class_digit. Qed.

Definition octet_lang (s : text) : Prop :=
  (exists c, s = [50; 53; c] /\ 48 <= c <= 53) \/
  (exists c, s = [c] /\ is_dec c) \/
  (exists b c, s = [50; b; c] /\ 48 <= b <= 52 /\ is_dec c) \/
  (exists b c, s = [b; c] /\ is_dec b /\ is_dec c) \/
  (exists b c, s = [49; b; c] /\ is_dec b /\ is_dec c).
Lemma lang_octet_enum s : lang octet s <-> octet_lang s.
Proof.
  unfold octet. rewrite lang_alt. split.
  - intros [H|H].
    + apply lang_cat in H. destruct H as (u & v & -> & A & B). apply lang_chr in A. subst u.
      apply lang_cat in B. destruct B as (u & w & -> & A & B). apply lang_chr in A. subst u. apply lang_class in B. destruct B as (c & -> & C).
      left. exists c. split; [reflexivity|]. unfold in_class in C. cbn in C. lia.
    + apply lang_cat in H. destruct H as (u & v & -> & A & B). apply lang_digit in B. destruct B as (d & -> & D).
      apply lang_opt in A. destruct A as [->|A]; [right; left; exists d; auto|]. apply lang_alt in A. destruct A as [A|A].
      * apply lang_cat in A. destruct A as (p & q & -> & P & Q). apply lang_chr in P. subst p. apply lang_class in Q. destruct Q as (c & -> & C).
        right; right; left. exists c, d. split; [reflexivity|]. split; [unfold in_class in C; cbn in C; lia|exact D].
      * apply lang_cat in A. destruct A as (p & q & -> & P & Q). apply lang_digit in Q. destruct Q as (c & -> & C).
        apply lang_opt in P. destruct P as [->|P]; [do 3 right; left; exists c, d; auto|]. apply lang_chr in P. subst p. do 4 right. exists c, d. auto.
  - assert (Dg : forall c, is_dec c -> lang digit_ [c]) by (intros; apply lang_digit; eauto).
    assert (Ch : forall k, lang (chr k) [k]) by (intros; now apply lang_chr).
    intros [(c & -> & H)|[(c & -> & H)|[(b & c & -> & H & K)|[(b & c & -> & H & K)|(b & c & -> & H & K)]]]].
    + left. change [50; 53; c] with ([50] ++ [53] ++ [c]). repeat constructor; try apply Ch. unfold in_class; cbn; lia.
    + right. change [c] with ([] ++ [c]). constructor; [apply lang_opt; auto|auto].
    + right. change [50; b; c] with (([50] ++ [b]) ++ [c]). constructor; [|auto]. apply lang_opt. right. apply LAltL. constructor; [apply Ch|]. constructor. unfold in_class; cbn; lia.
    + right. change [b; c] with (([] ++ [b]) ++ [c]). constructor; [|auto]. apply lang_opt. right. apply LAltR. constructor; [apply lang_opt; auto|auto].
    + right. change [49; b; c] with (([49] ++ [b]) ++ [c]). constructor; [|auto]. apply lang_opt. right. apply LAltR. constructor; [apply lang_opt; auto|auto].
Qed.
Lemma writes1 a : is_dec a -> writes (a - 48) [a].
Proof. unfold is_dec. intros. exists [a - 48]. split; [discriminate|]. split; [repeat constructor; lia|]. cbn. split; [f_equal; lia|lia]. Qed.
Lemma writes2 a b : is_dec a -> is_dec b -> writes ((a - 48) * 10 + (b - 48)) [a; b].
Proof. unfold is_dec. intros. exists [a - 48; b - 48]. split; [discriminate|]. split; [repeat constructor; lia|]. cbn. split; [repeat f_equal; lia|lia]. Qed.
Lemma writes3 a b c : is_dec a -> is_dec b -> is_dec c -> writes ((a - 48) * 100 + (b - 48) * 10 + (c - 48)) [a; b; c].
Proof. unfold is_dec. intros. exists [a - 48; b - 48; c - 48]. split; [discriminate|]. split; [repeat constructor; lia|]. cbn. split; [repeat f_equal; lia|lia]. Qed.
Lemma writes_fun n m s : writes n s -> writes m s -> n = m.
Proof. intros A B. apply number_writes in A, B. congruence. Qed.

Lemma lang_octet s : lang octet s <-> octet_text s.
Proof.
  rewrite lang_octet_enum. unfold octet_lang, octet_text, is_dec. split.
  - intros [(c & -> & H)|[(c & -> & H)|[(b & c & -> & H & K)|[(b & c & -> & H & K)|(b & c & -> & H & K)]]]].
    + eexists. split; [apply writes3; unfold is_dec; lia|]. cbn [List.length]. lia.
    + eexists. split; [apply writes1; unfold is_dec; lia|]. cbn [List.length]. lia.
    + eexists. split; [apply writes3; unfold is_dec; lia|]. cbn [List.length]. lia.
    + eexists. split; [apply writes2; unfold is_dec; lia|]. cbn [List.length]. lia.
    + eexists. split; [apply writes3; unfold is_dec; lia|]. cbn [List.length]. lia.
  - intros (n & W & H1 & H2 & H3). destruct (writes_dec _ _ W) as [N F].
    destruct s as [|a [|b [|c [|]]]]; cbn [List.length] in *; try lia; [congruence| | |].
    + inversion F; subst. right; left. exists a. auto.
    + inversion F as [|? ? Fa F']; subst. inversion F'; subst. do 3 right; left. exists a, b. auto.
    + inversion F as [|? ? Fa F']; subst. inversion F' as [|? ? Fb F'']; subst. inversion F'' as [|? ? Fc _]; subst.
      pose proof (writes_fun _ _ _ W (writes3 a b c Fa Fb Fc)). unfold is_dec in *. specialize (H3 eq_refl).
      assert (a = 49 \/ a = 50) as [->| ->] by lia; [do 4 right; exists b, c; auto|].
      destruct (Z.eq_dec b 53) as [->|]; [left; exists c; split; [reflexivity|lia]|].
      right; right; left. exists b, c. split; [reflexivity|]. lia.
Qed.
Lemma lang_ipv4 s : lang ipv4 s <-> ipv4_text s.
Proof.
  unfold ipv4, ipv4_text, dot. cbn [Times]. split.
  - intros H. apply lang_cat in H. destruct H as (u & d & -> & H & D).
    apply lang_cat in H. destruct H as (x & u1 & -> & X & H). apply lang_cat in X. destruct X as (a & x1 & -> & A & X). apply lang_chr in X. subst x1.
    apply lang_cat in H. destruct H as (x & u2 & -> & X & H). apply lang_cat in X. destruct X as (b & x1 & -> & B & X). apply lang_chr in X. subst x1.
    apply lang_cat in H. destruct H as (x & u3 & -> & X & H). apply lang_cat in X. destruct X as (c & x1 & -> & C & X). apply lang_chr in X. subst x1.
    apply lang_eps in H. subst u3. apply lang_octet in A, B, C, D. exists a, b, c, d. repeat (split; [assumption|]).
    rewrite <- !app_assoc. reflexivity.
  - intros (a & b & c & d & A & B & C & D & ->). apply lang_octet in A, B, C, D.
    replace (a ++ 46 :: b ++ 46 :: c ++ 46 :: d) with (((a ++ [46]) ++ (b ++ [46]) ++ (c ++ [46]) ++ []) ++ d) by (rewrite <- !app_assoc; reflexivity).
    repeat first [assumption | apply LEps | apply lang_chr; reflexivity | apply LCat].
Qed.

Lemma lang_group s : lang (Plus (Class alnum)) s <-> group_text s.
Proof.
  rewrite lang_plus_class. unfold group_text. split; intros [N F]; (split; [exact N|]); (eapply Forall_impl; [|exact F]); intros c; apply class_alnum.
Qed.
Lemma lang_label s : lang label_ s <-> label_text s.
Proof.
  unfold label_. split.
  - intros H. apply lang_cat in H. destruct H as (g & t & -> & G & H). apply lang_group in G.
    remember (Star (Cat (chr 45) (Plus (Class alnum)))) as r eqn:R. revert g G.
    induction H as [| | | | | |a s t Ha _ Hs IH]; intros g G; try discriminate; [rewrite app_nil_r; now constructor|].
    injection R as ->. apply lang_cat in Ha. destruct Ha as (x & y & -> & X & Y). apply lang_chr in X. subst x. apply lang_group in Y.
    cbn [app]. apply label_more; [exact G|]. apply IH; [reflexivity|exact Y].
  - induction 1 as [g G|g l G L IH].
    + rewrite <- (app_nil_r g). constructor; [now apply lang_group|constructor].
    + apply lang_cat in IH. destruct IH as (u & v & -> & U & V). constructor; [now apply lang_group|].
      change (45 :: u ++ v) with (([45] ++ u) ++ v). constructor; [|exact V]. constructor; [now apply lang_chr|exact U].
Qed.
Lemma lang_tld s : lang (Cat (Class lower) (Plus (Class lower))) s <-> (2 <= List.length s)%nat /\ Forall is_lower s.
Proof.
  rewrite lang_cat. split.
  - intros (u & v & -> & U & V). apply lang_class in U. destruct U as (c & -> & C). apply lang_plus_class in V. destruct V as [N F].
    split; [destruct v; [congruence|cbn; lia]|]. constructor; [now apply class_lower|]. eapply Forall_impl; [|exact F]. intros x; apply class_lower.
  - intros [L F]. destruct F as [|c s C F]; [cbn in L; lia|]. exists [c], s. split; [reflexivity|]. split; [constructor; now apply class_lower|].
    apply lang_plus_class. split; [destruct s; [cbn in L; lia|discriminate]|]. eapply Forall_impl; [|exact F]. intros x; apply class_lower.
Qed.
Lemma lang_fqn s : lang fqn_ s <-> fqn_text s.
Proof.
  unfold fqn_. split.
  - intros H. apply lang_cat in H. destruct H as (p & t & -> & P & T). apply lang_tld in T. destruct T as [L F].
    unfold Plus in P. apply lang_cat in P. destruct P as (x & y & -> & X & H). apply lang_cat in X. destruct X as (l & d & -> & X & D). apply lang_chr in D. subst d. apply lang_label in X.
    remember (Star (Cat label_ (chr 46))) as r eqn:R. revert l X.
    induction H as [| | | | | |a s u Ha _ Hs IH]; intros lb X; try discriminate.
    + rewrite app_nil_r, <- app_assoc. now apply fqn_one.
    + injection R as ->. apply lang_cat in Ha. destruct Ha as (x & y & -> & A & B). apply lang_chr in B. subst y. apply lang_label in A.
      specialize (IH eq_refl x A). rewrite <- !app_assoc in *. cbn [app]. apply fqn_more; [exact X|]. cbn [app] in *. rewrite <- ?app_assoc in *. exact IH.
  - induction 1 as [l t Hl L F|l f Hl _ IH]; unfold dot.
    + replace (l ++ 46 :: t) with (((l ++ [46]) ++ []) ++ t) by (rewrite <- !app_assoc; reflexivity).
      constructor; [|apply lang_tld; auto]. constructor; [|constructor]. constructor; [now apply lang_label|now apply lang_chr].
    + apply lang_cat in IH. destruct IH as (u & v & -> & U & V).
      replace (l ++ 46 :: u ++ v) with (((l ++ [46]) ++ u) ++ v) by (rewrite <- !app_assoc; reflexivity).
      constructor; [|exact V]. unfold Plus in *. constructor; [constructor; [now apply lang_label|now apply lang_chr]|].
      apply lang_cat in U. destruct U as (u1 & u2 & -> & U1 & U2). now constructor.
Qed.

(** C49: exactly which hosts are accepted: those that begin with a small letter or
    a digit, those that contain an IPv4 address and those that end in a host name
    with a dot. *)
Theorem C49_host s : validate_host s = true <->
  (exists c r, s = c :: r /\ is_alnum c) \/
  (exists p a q, s = p ++ a ++ q /\ ipv4_text a) \/
  (exists p f, s = p ++ f /\ fqn_text f).
Proof.
  unfold validate_host, match_regex. cbn [existsb]. rewrite !orb_false_r, !orb_true_iff, !match_branch_spec. cbn [from_start to_end body].
  split.
  - intros [(p & m & q & E & H & _ & _)|[(p & m & q & E & H & P & _)|(p & m & q & E & H & _ & Q)]].
    + right; left. exists p, m, q. split; [exact E|now apply lang_ipv4].
    + left. rewrite (P eq_refl) in E. cbn [app] in E. apply lang_label in H.
      assert (G : exists c r, m = c :: r /\ is_alnum c).
      { destruct H as [g [N F]|g l [N F] _]; (destruct F as [|c g C F]; [congruence|]); eauto. eexists _, _. split; [reflexivity|exact C]. }
      destruct G as (c & r & -> & C). exists c, (r ++ q). subst s. auto.
    + right; right. rewrite (Q eq_refl), app_nil_r in E. exists p, m. split; [exact E|now apply lang_fqn].
  - intros [(c & r & -> & C)|[(p & a & q & -> & A)|(p & f & -> & F)]].
    + right; left. exists [], [c], r. split; [reflexivity|]. split; [apply lang_label, label_one; split; [discriminate|constructor; [exact C|constructor]]|]. split; auto; discriminate.
    + left. exists p, a, q. split; [reflexivity|]. split; [now apply lang_ipv4|]. split; discriminate.
    + right; right. exists p, f, []. rewrite app_nil_r. split; [reflexivity|]. split; [now apply lang_fqn|]. split; [discriminate|auto].
Qed.

(** C49: every IPv4 address and every host name is accepted. *)
Theorem C49_host_accepts s : ipv4_text s \/ host_name s -> validate_host s = true.
Proof.
  intros H. apply C49_host. destruct H as [H|[H|H]].
  - right; left. exists [], s, []. rewrite app_nil_r. auto.
  - left. destruct H as [g [N F]|g l [N F] _]; (destruct F as [|c g C F]; [congruence|]); eexists _, _; (split; [reflexivity|exact C]).
  - right; right. exists [], s. auto.
Qed.
Example C49_host_ex : ipv4_text (lit "192.168.1.254") /\ host_name (lit "rti-1.example.org") /\ validate_host (lit "Rti") = false.
Proof.
  split; [|split; [|vm_compute; reflexivity]].
  - apply lang_ipv4, matches_spec. vm_compute. reflexivity.
  - right. apply lang_fqn, matches_spec. vm_compute. reflexivity.
Qed.
(** But also strings that are neither. *)
Theorem C49_host_refuted : exists s, validate_host s = true /\ ~ ipv4_text s /\ ~ host_name s.
Proof.
  exists (lit "a b!"). split; [vm_compute; reflexivity|]. split; [|intros [H|H]].
  - intros H. apply lang_ipv4, matches_spec in H. vm_compute in H. discriminate.
  - apply lang_label, matches_spec in H. vm_compute in H. discriminate.
  - apply lang_fqn, matches_spec in H. vm_compute in H. discriminate.
Qed.

(** ** Users. *)
Lemma class_user c : in_class user_class c = true <-> user_char c.
Proof. unfold in_class, user_class, user_char, is_alnum, is_lower, is_dec. cbn. lia. Qed.
(** C49: a user is accepted exactly if it is a user name. *)
Theorem C49_user s : validate_user s = true <-> user_name s.
Proof.
  unfold validate_user, match_regex. cbn [existsb]. rewrite orb_false_r, match_branch_spec. cbn [from_start to_end body].
  assert (Cl : forall c, in_class [(97, 122); (95, 95)] c = true <-> is_lower c \/ c = 95) by (intros c; unfold in_class, is_lower; cbn; lia).
  assert (W : lang user_ s <-> user_name s).
  { unfold user_, user_name. rewrite lang_cat. split.
    - intros (u & v & -> & U & V). apply lang_class in U. destruct U as (c & -> & C). apply Cl in C. apply lang_alt in V. destruct V as [V|V].
      + apply lang_upto_class in V. destruct V as [L F]. exists c, v. split; [exact C|]. split; [eapply Forall_impl; [|exact F]; intros x; apply class_user|auto].
      + apply lang_cat in V. destruct V as (x & y & -> & V & Y). apply lang_chr in Y. subst y. apply lang_upto_class in V. destruct V as [L F].
        exists c, x. split; [exact C|]. split; [eapply Forall_impl; [|exact F]; intros z; apply class_user|auto].
    - intros (c & r & C & F & H). assert (F' : Forall (fun c => in_class user_class c = true) r) by (eapply Forall_impl; [|exact F]; intros x; apply class_user).
      destruct H as [[-> L]|[-> L]].
      + exists [c], r. split; [reflexivity|]. split; [constructor; now apply Cl|]. apply LAltL, lang_upto_class. auto.
      + exists [c], (r ++ [36]). split; [reflexivity|]. split; [constructor; now apply Cl|]. apply LAltR. constructor; [apply lang_upto_class; auto|now apply lang_chr]. }
  rewrite <- W. split.
  - intros (p & m & q & -> & H & P & Q). rewrite (P eq_refl), (Q eq_refl), app_nil_r. exact H.
  - intros H. exists [], s, []. rewrite app_nil_r. auto.
Qed.
Example C49_user_ex : user_name (lit "lf_user") /\ validate_user (lit "Root") = false.
Proof. split; [apply C49_user; vm_compute; reflexivity|vm_compute; reflexivity]. Qed.

(** ** Taking an address apart. *)
Lemma span_spec n l : forall s a b, span n l s = (a, b) ->
  s = a ++ b /\ (List.length a <= n)%nat /\ Forall (fun c => in_class l c = true) a /\
  ((List.length a < n)%nat -> match b with [] => True | c :: _ => in_class l c = false end).
Proof.
  induction n as [|n IH]; intros s a b E; cbn [span] in E; [injection E as <- <-; split; [reflexivity|]; split; [cbn; lia|]; split; [constructor|cbn; lia]|].
  destruct s as [|c r]; [injection E as <- <-; split; [reflexivity|]; split; [cbn; lia|]; split; [constructor|auto]|].
  destruct (in_class l c) eqn:C.
  - destruct (span n l r) as [a' b'] eqn:S1. injection E as <- <-. destruct (IH r a' b' S1) as (-> & L & F & M).
    split; [reflexivity|]. split; [cbn; lia|]. split; [constructor; assumption|]. intros H. apply M. cbn in H. lia.
  - injection E as <- <-. split; [reflexivity|]. split; [cbn; lia|]. split; [constructor|]. intros _. exact C.
Qed.
Lemma span_full n l : forall a b, (List.length a <= n)%nat -> Forall (fun c => in_class l c = true) a ->
  ((List.length a < n)%nat -> match b with [] => True | c :: _ => in_class l c = false end) -> span n l (a ++ b) = (a, b).
Proof.
  induction n as [|n IH]; intros a b L F M; [destruct a; [reflexivity|cbn in L; lia]|].
  destruct a as [|c a]; cbn [app span].
  - specialize (M ltac:(cbn; lia)). destruct b as [|c b]; [reflexivity|]. now rewrite M.
  - inversion F; subst. cbn [List.length] in *. replace (in_class l c) with true by auto. rewrite IH; [reflexivity|lia|assumption|]. intros. apply M. lia.
Qed.
Lemma class_addr_user c : in_class addr_user_class c = true <-> addr_user_char c.
Proof. unfold in_class, addr_user_class, addr_user_char, is_lower, is_upper, is_dec. cbn. lia. Qed.
Lemma class_addr_host c : in_class addr_host_class c = true <-> addr_host_char c.
Proof. unfold in_class, addr_host_class, addr_host_char, addr_user_char, is_lower, is_upper, is_dec. cbn. lia. Qed.
Lemma class_addr_digit c : in_class digit_class c = true <-> is_dec c.
Proof. unfold in_class, digit_class, is_dec. cbn. lia. Qed.
Lemma Forall_iff {A} (P Q : A -> Prop) l : (forall x, P x <-> Q x) -> Forall P l <-> Forall Q l.
Proof. intros H. split; apply Forall_impl; intros x; apply H. Qed.

Lemma skip_to_spec l s : exists p, s = p ++ skip_to l s /\ Forall (fun c => in_class l c = false) p /\
  match skip_to l s with [] => True | c :: _ => in_class l c = true end.
Proof.
  induction s as [|c s (p & E & F & M)]; cbn [skip_to]; [exists []; auto|].
  destruct (in_class l c) eqn:C; [exists []; rewrite C; auto|]. exists (c :: p). split; [cbn; congruence|]. split; [constructor; assumption|exact M].
Qed.

(** Two readings of the front of a text in which host characters end. *)
Lemma run_unique (P : Z -> Prop) a b x y : a ++ x = b ++ y -> Forall P a -> Forall P b ->
  match x with [] => True | c :: _ => ~ P c end -> match y with [] => True | c :: _ => ~ P c end -> a = b /\ x = y.
Proof.
  revert b. induction a as [|c a IH]; intros b E Fa Fb Hx Hy.
  - destruct b as [|d b]; [auto|]. cbn in E. subst x. inversion Fb; subst. contradiction.
  - destruct b as [|d b]; cbn [app] in E; [subst y; inversion Fa; subst; contradiction|].
    injection E as -> E. inversion Fa; inversion Fb; subst. destruct (IH b E) as [-> ->]; auto.
Qed.

Lemma extract_at_some c r : in_class addr_host_class c = true ->
  exists a t, extract_at (c :: r) = Some (a, t) /\ c :: r = addr_text (a_user a) (a_host a) (a_port a) ++ t /\
    parts_ok (a_user a) (a_host a) (a_port a) /\
    (forall u h p t', c :: r = addr_text u h p ++ t' -> parts_ok u h p -> (List.length t <= List.length t')%nat).
Proof.
  intros C.
  (* the part from the host on *)
  assert (Host : forall s, (exists x y, s = x :: y /\ in_class addr_host_class x = true) ->
     exists h s2 po s3,
       span 255 addr_host_class s = (h, s2) /\ h <> [] /\
       (match s2 with 58 :: q => match span 5 digit_class q with ([], _) => (None, s2) | (p, t) => (Some p, t) end | _ => (None, s2) end) = (po, s3) /\
       s = h ++ port_part po ++ s3 /\ (1 <= List.length h <= 255)%nat /\ Forall addr_host_char h /\
       (forall p', po = Some p' -> (1 <= List.length p' <= 5)%nat /\ Forall is_dec p') /\
       (forall h' p' t', s = h' ++ port_part p' ++ t' -> (1 <= List.length h' <= 255)%nat -> Forall addr_host_char h' ->
          (forall p, p' = Some p -> (1 <= List.length p <= 5)%nat /\ Forall is_dec p) -> (List.length s3 <= List.length t')%nat)).
  { intros s (x & y & -> & X). destruct (span 255 addr_host_class (x :: y)) as [h s2] eqn:Sp.
    pose proof (span_spec _ _ _ _ _ Sp) as (E & L & F & M).
    assert (Hne : h <> []). { intros ->. cbn [List.length] in M. specialize (M ltac:(lia)). cbn [app] in E. subst s2. congruence. }
    assert (F' : Forall addr_host_char h) by (eapply Forall_iff; [intros; symmetry; apply class_addr_host|exact F]).
    assert (Lh : (1 <= List.length h <= 255)%nat) by (destruct h; [congruence|cbn [List.length] in *; lia]).
    (* another reading has a host no longer than ours, and ours if a port follows *)
    assert (Other : forall h' z, x :: y = h' ++ z -> (List.length h' <= 255)%nat -> Forall addr_host_char h' ->
        (List.length h' <= List.length h)%nat /\ (match z with 58 :: _ => h' = h /\ z = s2 | _ => True end)).
    { intros h' z E' L' Fh'. rewrite E in E'.
      assert (Le : (List.length h' <= List.length h)%nat).
      { destruct (Nat.le_gt_cases (List.length h') (List.length h)) as [|G]; [assumption|]. exfalso.
        specialize (M ltac:(lia)). assert (Hs : h' = h ++ skipn (List.length h) h').
        { assert (Q : firstn (List.length h) (h ++ s2) = firstn (List.length h) (h' ++ z)) by congruence.
          rewrite !firstn_app, Nat.sub_diag, firstn_all in Q. cbn [firstn] in Q. rewrite app_nil_r in Q.
          replace (List.length h - List.length h')%nat with 0%nat in Q by lia. cbn [firstn] in Q. rewrite app_nil_r in Q.
          rewrite Q at 1. symmetry. apply firstn_skipn. }
        rewrite Hs in E'. rewrite <- app_assoc in E'. apply app_inv_head in E'.
        destruct (skipn (List.length h) h') as [|k q] eqn:K.
        - apply (f_equal (@List.length Z)) in K. rewrite skipn_length in K. cbn in K. lia.
        - cbn [app] in E'. subst s2. rewrite Hs in Fh'. apply Forall_app in Fh'. destruct Fh' as [_ Fq]. inversion Fq; subst.
          apply class_addr_host in H1. congruence. }
      split; [exact Le|]. destruct z as [|k z]; [exact I|]. destruct (Z.eq_dec k 58) as [->|Hk].
      2:{ destruct k as [|k|k]; try exact I. repeat (destruct k as [k|k|]; try exact I; try congruence). }
      assert (Nc : ~ addr_host_char 58) by (unfold addr_host_char, addr_user_char, is_lower, is_upper, is_dec; lia).
      assert (Ex : h = h' ++ skipn (List.length h') h).
      { assert (Q : firstn (List.length h') (h ++ s2) = firstn (List.length h') (h' ++ 58 :: z)) by congruence.
        rewrite !firstn_app, Nat.sub_diag, firstn_all in Q. cbn [firstn] in Q. rewrite app_nil_r in Q.
        replace (List.length h' - List.length h)%nat with 0%nat in Q by lia. cbn [firstn] in Q. rewrite app_nil_r in Q.
        rewrite <- Q at 1. symmetry. apply firstn_skipn. }
      rewrite Ex, <- app_assoc in E'. apply app_inv_head in E'. destruct (skipn (List.length h') h) as [|k q] eqn:K.
      - cbn [app] in E'. rewrite app_nil_r in Ex. auto.
      - cbn [app] in E'. injection E' as -> _. rewrite Ex in F'. apply Forall_app in F'. destruct F' as [_ F']. inversion F'; subst. contradiction. }
    set (po_s3 := match s2 with 58 :: q => match span 5 digit_class q with ([], _) => (None, s2) | (p, t) => (Some p, t) end | _ => (None, s2) end).
    destruct po_s3 as [po s3] eqn:Po. unfold po_s3 in Po. exists h, s2, po, s3. split; [reflexivity|]. split; [exact Hne|]. split; [exact Po|].
    assert (Cases : (po = None /\ s3 = s2 /\ (forall q, s2 = 58 :: q -> match q with d :: _ => ~ is_dec d | [] => True end)) \/
                    (exists p, po = Some p /\ s2 = 58 :: p ++ s3 /\ (1 <= List.length p <= 5)%nat /\ Forall is_dec p /\
                               ((List.length p < 5)%nat -> match s3 with [] => True | c :: _ => ~ is_dec c end))).
    { assert (Alt58 : (exists q, s2 = 58 :: q) \/ (forall q, s2 <> 58 :: q)).
      { destruct s2 as [|k q]; [right; discriminate|]. destruct (Z.eq_dec k 58) as [->|]; [left; eauto|right; congruence]. }
      destruct Alt58 as [(q & ->)|N58].
      - destruct (span 5 digit_class q) as [p t] eqn:Sd. pose proof (span_spec _ _ _ _ _ Sd) as (E5 & L5 & F5 & M5). destruct p as [|p0 p].
        + injection Po as <- <-. left. split; [reflexivity|]. split; [reflexivity|]. intros q' [= <-]. cbn [app] in E5. subst t.
          specialize (M5 ltac:(cbn; lia)). destruct q; [exact I|]. intros Hd. apply class_addr_digit in Hd. congruence.
        + injection Po as <- <-. right. exists (p0 :: p). split; [reflexivity|]. split; [congruence|]. split; [cbn [List.length] in *; lia|].
          split; [eapply Forall_iff; [intros; symmetry; apply class_addr_digit|exact F5]|]. intros Hl. specialize (M5 Hl).
          destruct t; [exact I|]. intros Hd. apply class_addr_digit in Hd. congruence.
      - assert ((po, s3) = (None, s2)) as [= -> ->].
        { rewrite <- Po. destruct s2 as [|k q]; [reflexivity|]. destruct k as [|k|k]; try reflexivity.
          repeat (destruct k as [k|k|]; try reflexivity). exfalso. now apply (N58 q). }
        left. split; [reflexivity|]. split; [reflexivity|]. intros q E58. now apply N58 in E58. }
    split. { rewrite E. f_equal. destruct Cases as [(-> & -> & _)|(p & -> & -> & _)]; reflexivity. }
    split; [exact Lh|]. split; [exact F'|].
    split. { intros p' Hp. destruct Cases as [(-> & _)|(p & -> & _ & A & B & _)]; [discriminate|]. injection Hp as <-. auto. }
    intros h' p' t' E' L' Fh' Pp'. destruct p' as [p'|]; cbn [port_part app] in E'.
    - destruct (Other h' (58 :: p' ++ t') E' ltac:(lia) Fh') as [_ [-> Es]]. destruct (Pp' p' eq_refl) as [Lp' Fp'].
      destruct Cases as [(-> & -> & Nd)|(p & -> & E2 & Lp & Fp & Mp)].
      + exfalso. specialize (Nd (p' ++ t') (eq_sym Es)). destruct Fp' as [|d p' D Fp']; [cbn in Lp'; lia|]. cbn in Nd. contradiction.
      + rewrite E2 in Es. injection Es as Es. apply (f_equal (@List.length Z)) in Es as El. rewrite !app_length in El.
        destruct (Nat.le_gt_cases (List.length p') (List.length p)) as [|G]; [lia|]. exfalso. specialize (Mp ltac:(lia)).
        assert (Q : firstn (List.length p) (p' ++ t') = firstn (List.length p) (p ++ s3)) by congruence.
        rewrite !firstn_app, Nat.sub_diag, firstn_all in Q. cbn [firstn] in Q. rewrite app_nil_r in Q.
        replace (List.length p - List.length p')%nat with 0%nat in Q by lia. cbn [firstn] in Q. rewrite app_nil_r in Q.
        assert (Ex : p' = p ++ skipn (List.length p) p') by (rewrite <- Q at 1; symmetry; apply firstn_skipn).
        rewrite Ex, <- app_assoc in Es. apply app_inv_head in Es. destruct (skipn (List.length p) p') as [|k q] eqn:K.
        * apply (f_equal (@List.length Z)) in K. rewrite skipn_length in K. cbn in K. lia.
        * cbn [app] in Es. subst s3. rewrite Ex in Fp'. apply Forall_app in Fp'. destruct Fp' as [_ Fp']. inversion Fp'; subst. contradiction.
    - destruct (Other h' t' E' ltac:(lia) Fh') as [Le _]. apply (f_equal (@List.length Z)) in E' as El. rewrite app_length in El.
      assert (List.length s3 <= List.length s2)%nat. { destruct Cases as [(_ & -> & _)|(p & _ & -> & _)]; [lia|]. cbn [List.length]. rewrite app_length. lia. }
      rewrite E in El. rewrite app_length in El. lia. }
  (* the user *)
  destruct (span 254 addr_user_class (c :: r)) as [u0 rest] eqn:Su. pose proof (span_spec _ _ _ _ _ Su) as (Eu & Lu & Fu & Mu).
  assert (Fu' : Forall addr_user_char u0) by (eapply Forall_iff; [intros; symmetry; apply class_addr_user|exact Fu]).
  assert (N64 : ~ addr_host_char 64) by (unfold addr_host_char, addr_user_char, is_lower, is_upper, is_dec; lia).
  (* a user in any reading is the run of user characters, followed by @ and a host *)
  assert (AnyUser : forall u' z, c :: r = (u' ++ [64]) ++ z -> (1 <= List.length u' <= 254)%nat -> Forall addr_user_char u' -> u' = u0 /\ rest = 64 :: z).
  { intros u' z E' L' Fx. rewrite Eu in E'. rewrite <- app_assoc in E'. cbn [app] in E'.
    assert (N64u : ~ addr_user_char 64) by (intros H; apply N64; left; exact H).
    destruct (Nat.lt_ge_cases (List.length u0) 254) as [G|G].
    - specialize (Mu G). destruct (run_unique addr_user_char u0 u' rest (64 :: z) E' Fu' Fx) as [<- <-]; [|exact N64u|auto].
      destruct rest; [exact I|]. intros H. apply class_addr_user in H. congruence.
    - assert (List.length u0 = 254%nat) as L0 by lia.
      assert (Q : firstn (List.length u') (u0 ++ rest) = firstn (List.length u') (u' ++ 64 :: z)) by congruence.
      rewrite !firstn_app, Nat.sub_diag, firstn_all in Q. cbn [firstn] in Q. rewrite app_nil_r in Q.
      replace (List.length u' - List.length u0)%nat with 0%nat in Q by lia. cbn [firstn] in Q. rewrite app_nil_r in Q.
      assert (Ex : u0 = u' ++ skipn (List.length u') u0) by (rewrite <- Q at 1; symmetry; apply firstn_skipn).
      rewrite Ex, <- app_assoc in E'. apply app_inv_head in E'. destruct (skipn (List.length u') u0) as [|k q] eqn:K.
      + rewrite app_nil_r in Ex. auto.
      + cbn [app] in E'. injection E' as -> _. rewrite Ex in Fu'. apply Forall_app in Fu'. destruct Fu' as [_ Fq]. inversion Fq; subst. contradiction. }
  unfold extract_at.
  assert (Choice : (exists c1 r1, u0 <> [] /\ rest = 64 :: c1 :: r1 /\ in_class addr_host_class c1 = true) \/
                   (forall u' c1 r1, u0 = u' -> rest = 64 :: c1 :: r1 -> in_class addr_host_class c1 = true -> u0 = [])).
  { destruct u0 as [|x u0]; [right; auto|]. destruct rest as [|k rest]; [right; discriminate|].
    destruct (Z.eq_dec k 64) as [->|]; [|right; congruence]. destruct rest as [|c1 r1]; [right; discriminate|].
    destruct (in_class addr_host_class c1) eqn:C1; [left; exists c1, r1; split; [discriminate|auto]|right]. congruence. }
  destruct Choice as [(c1 & r1 & Une & -> & C1)|NoUser].
  - (* with user *)
    destruct u0 as [|x u0]; [congruence|]. assert (extract_user (c :: r) = (Some (x :: u0), c1 :: r1)) as -> by (unfold extract_user; rewrite Su, C1; reflexivity).
    destruct (Host (c1 :: r1)) as (h & s2 & po & s3 & S1 & Hne & S2 & Es & Lh & Fh & Pp & Best); [eauto|].
    rewrite S1. destruct h as [|h0 h]; [congruence|]. rewrite S2. eexists _, _. split; [reflexivity|]. cbn [a_user a_host a_port].
    split. { rewrite Eu. unfold addr_text, user_part. rewrite Es. rewrite <- !app_assoc. reflexivity. }
    split. { split; [intros u' [= <-]; split; [cbn [List.length] in *; lia|exact Fu']|]. split; [exact Lh|]. split; [exact Fh|exact Pp]. }
    intros u h' p t' E' (Uok & Lh' & Fh' & Pok). destruct u as [u|].
    + destruct (Uok u eq_refl) as [Lu' Fx]. unfold addr_text in E'. cbn [user_part] in E'. rewrite <- !app_assoc in E'. rewrite app_assoc in E'.
      destruct (AnyUser u _ E' Lu' Fx) as [_ Ez]. injection Ez as Ez. eapply (Best h' p t'); [|exact Lh'|exact Fh'|exact Pok].
      rewrite Ez. reflexivity.
    + (* without a user the match ends before the @ *)
      unfold addr_text in E'. cbn [user_part app] in E'. rewrite <- app_assoc in E'. rewrite Eu in E'.
      assert (Nx : (List.length (64%Z :: c1 :: r1) <= List.length (port_part p ++ t'))%nat /\ (p <> None -> False)).
      { assert (Fu2 : Forall addr_host_char (x :: u0)) by (eapply Forall_impl; [|exact Fu']; intros; left; assumption).
        destruct (Nat.le_gt_cases (List.length h') (List.length (x :: u0))) as [G|G].
        - split.
          + apply (f_equal (@List.length Z)) in E'. rewrite !app_length in E'. rewrite app_length. lia.
          + intros Hp. destruct p as [p|]; [|congruence]. cbn [port_part] in E'. change ((58 :: p) ++ t') with (58 :: p ++ t') in E'.
            assert (Q : firstn (List.length h') ((x :: u0) ++ 64 :: c1 :: r1) = firstn (List.length h') (h' ++ 58 :: p ++ t')) by congruence.
            rewrite !firstn_app, Nat.sub_diag, firstn_all in Q. cbn [firstn] in Q. rewrite app_nil_r in Q.
            replace (List.length h' - List.length (x :: u0))%nat with 0%nat in Q by lia. cbn [firstn] in Q. rewrite app_nil_r in Q.
            assert (Ex : x :: u0 = h' ++ skipn (List.length h') (x :: u0)) by (rewrite <- Q at 1; symmetry; apply firstn_skipn).
            rewrite Ex, <- app_assoc in E'. apply app_inv_head in E'. destruct (skipn (List.length h') (x :: u0)) as [|k q] eqn:K.
            * cbn [app] in E'. discriminate.
            * cbn [app] in E'. injection E' as -> _. rewrite Ex in Fu2. apply Forall_app in Fu2. destruct Fu2 as [_ Fq]. inversion Fq as [|? ? B]; subst.
              unfold addr_host_char, addr_user_char, is_lower, is_upper, is_dec in B. lia.
        - exfalso.
          assert (Q : firstn (List.length (x :: u0)) (h' ++ port_part p ++ t') = firstn (List.length (x :: u0)) ((x :: u0) ++ 64 :: c1 :: r1)) by congruence.
          rewrite firstn_app in Q. rewrite (firstn_app _ (x :: u0)), Nat.sub_diag, firstn_all in Q. rewrite firstn_O in Q. rewrite app_nil_r in Q.
          replace (List.length (x :: u0) - List.length h')%nat with 0%nat in Q by lia. rewrite firstn_O, app_nil_r in Q.
          assert (Ex : h' = (x :: u0) ++ skipn (List.length (x :: u0)) h') by (rewrite <- Q at 1; symmetry; apply firstn_skipn).
          rewrite Ex, <- app_assoc in E'. apply app_inv_head in E'. destruct (skipn (List.length (x :: u0)) h') as [|k q] eqn:K.
          + apply (f_equal (@List.length Z)) in K. rewrite skipn_length in K. cbn [List.length] in *. lia.
          + cbn [app] in E'. injection E' as <- _. rewrite Ex in Fh'. apply Forall_app in Fh'. destruct Fh' as [_ Fq]. inversion Fq; subst. contradiction. }
      destruct Nx as [Nx Np]. destruct p as [p|]; [exfalso; apply Np; discriminate|]. cbn [port_part app] in Nx.
      apply (f_equal (@List.length Z)) in Es. rewrite !app_length in Es. cbn [List.length] in *. lia.
  - (* without user *)
    destruct (Host (c :: r)) as (h & s2 & po & s3 & S1 & Hne & S2 & Es & Lh & Fh & Pp & Best); [eauto|].
    exists (mkAddr None h po), s3. cbn [a_user a_host a_port].
    split.
    { assert (Sel : extract_user (c :: r) = (None, c :: r)).
      { unfold extract_user. rewrite Su. destruct u0 as [|x u0]; [reflexivity|]. destruct rest as [|k rest]; [reflexivity|].
        destruct (Z.eq_dec k 64) as [->|Hk].
        - destruct rest as [|c1 r1]; [reflexivity|]. destruct (in_class addr_host_class c1) eqn:C1; [|reflexivity].
          exfalso. specialize (NoUser _ c1 r1 eq_refl eq_refl C1). discriminate.
        - destruct k as [|k|k]; try reflexivity. repeat (destruct k as [k|k|]; try reflexivity). congruence. }
      rewrite Sel, S1. destruct h as [|h0 h]; [congruence|]. rewrite S2. reflexivity. }
    split; [unfold addr_text; cbn [user_part app]; rewrite <- app_assoc; exact Es|].
    split; [split; [discriminate|]; split; [exact Lh|]; split; [exact Fh|exact Pp]|].
    intros u h' p t' E' (Uok & Lh' & Fh' & Pok). destruct u as [u|].
    + exfalso. destruct (Uok u eq_refl) as [Lu' Fx]. unfold addr_text in E'. cbn [user_part] in E'. rewrite <- !app_assoc in E'. rewrite app_assoc in E'.
      destruct (AnyUser u _ E' Lu' Fx) as [-> Ez]. destruct Fh' as [|c1 h' C1 Fh']; [cbn in Lh'; lia|].
      apply class_addr_host in C1. specialize (NoUser _ c1 _ eq_refl Ez C1). subst u0. cbn in Lu'. lia.
    + eapply (Best h' p t'); [|exact Lh'|exact Fh'|exact Pok]. unfold addr_text in E'. cbn [user_part app] in E'. rewrite <- app_assoc in E'. exact E'.
Qed.

(** C49: what is taken from an address is the leftmost part of it that has the
    form [user@]host[:port], and the longest such part there. *)
Theorem C49_extract s :
  match extract s with
  | None => Forall (fun c => ~ addr_host_char c) s
  | Some a => exists pre post,
      s = pre ++ addr_text (a_user a) (a_host a) (a_port a) ++ post /\
      parts_ok (a_user a) (a_host a) (a_port a) /\
      (forall u h p pre' post', s = pre' ++ addr_text u h p ++ post' -> parts_ok u h p ->
         (List.length pre <= List.length pre')%nat /\
         (List.length pre' = List.length pre -> (List.length (addr_text u h p) <= List.length (addr_text (a_user a) (a_host a) (a_port a)))%nat))
  end.
Proof.
  unfold extract. destruct (skip_to_spec addr_host_class s) as (pre & E & F & M). destruct (skip_to addr_host_class s) as [|c r] eqn:Sk.
  - cbn. rewrite app_nil_r in E. rewrite E. eapply Forall_impl; [|exact F]. intros x H K. apply class_addr_host in K. congruence.
  - destruct (extract_at_some c r M) as (a & t & -> & Et & Pok & Best). exists pre, t. split; [rewrite <- Et; exact E|]. split; [exact Pok|].
    intros u h p pre' post' E' P'.
    assert (First : exists k q, addr_text u h p = k :: q /\ addr_host_char k).
    { destruct P' as (Uok & Lh & Fh & _). unfold addr_text. destruct u as [u|].
      - destruct (Uok u eq_refl) as [Lu Fu]. destruct Fu as [|k u K Fu]; [cbn in Lu; lia|]. cbn. eexists _, _. split; [reflexivity|left; exact K].
      - destruct Fh as [|k h K Fh]; [cbn in Lh; lia|]. cbn. eauto. }
    destruct First as (k & q & Ek & K).
    assert (Le : (List.length pre <= List.length pre')%nat).
    { destruct (Nat.le_gt_cases (List.length pre) (List.length pre')) as [|G]; [assumption|]. exfalso.
      assert (Nt : nth_error s (List.length pre') = Some k). { rewrite E', nth_error_app2 by lia. rewrite Nat.sub_diag, Ek. reflexivity. }
      rewrite E, nth_error_app1 in Nt by lia. apply nth_error_In in Nt. rewrite Forall_forall in F. apply F in Nt. apply class_addr_host in K. congruence. }
    split; [exact Le|]. intros Leq.
    assert (pre' = pre /\ addr_text u h p ++ post' = c :: r) as [-> Er].
    { rewrite E in E'. symmetry in E'. assert (Q : firstn (List.length pre') (pre' ++ addr_text u h p ++ post') = firstn (List.length pre') (pre ++ c :: r)) by congruence.
      rewrite firstn_app, Nat.sub_diag, firstn_all, firstn_O, app_nil_r in Q. rewrite Leq in Q. rewrite firstn_app, Nat.sub_diag, firstn_all, firstn_O, app_nil_r in Q.
      subst pre'. split; [reflexivity|]. now apply app_inv_head in E'. }
    pose proof (Best u h p post' (eq_sym Er) P') as Lb. apply (f_equal (@List.length Z)) in Er. rewrite Et in Er. rewrite !app_length in Er. lia.
Qed.

(** C49: an address that consists of a user name, a host name or IPv4 address and
    a port is used as it is written. *)
Theorem C49_address u h p n m :
  user_name u -> Forall user_char u -> ipv4_text h \/ host_name h -> Forall addr_host_char h -> (List.length h <= 255)%nat -> port_text p n ->
  parse_rti_addr (addr_text (Some u) h (Some p)) m = Ok (SUCCESS, mkMeta (Some h) n (Some u)).
Proof.
  intros Hu Fu Hh Fh Lh (Wp & Lp & Np).
  assert (Fu' : Forall addr_user_char u).
  { eapply Forall_impl; [|exact Fu]. unfold user_char, is_alnum, addr_user_char. tauto. }
  assert (Lu : (1 <= List.length u <= 254)%nat).
  { destruct Hu as (c & r & _ & _ & [[-> L]|[-> L]]); cbn [List.length]; rewrite ?app_length; cbn [List.length]; lia. }
  destruct (writes_dec _ _ Wp) as [Pne Fp].
  assert (Hne : exists h0 h1, h = h0 :: h1 /\ in_class addr_host_class h0 = true).
  { destruct Fh as [|h0 h1 H0 Fh]; [|exists h0, h1; split; [reflexivity|now apply class_addr_host]].
    exfalso. destruct Hh as [(a & b & c & d & _ & _ & _ & _ & E)|[H|H]].
    - symmetry in E. apply app_eq_nil in E. destruct E as [_ E]. discriminate.
    - inversion H as [g [N _] E|g l G L E]; subst; [congruence|]. apply app_eq_nil in E. destruct E; discriminate.
    - inversion H as [l t L _ _ E|l t L _ E]; subst; apply app_eq_nil in E; destruct E; discriminate. }
  destruct Hne as (h0 & h1 & Eh & H0).
  assert (Ex : extract (addr_text (Some u) h (Some p)) = Some (mkAddr (Some u) h (Some p))).
  { unfold extract. assert (Sk : skip_to addr_host_class (addr_text (Some u) h (Some p)) = addr_text (Some u) h (Some p)).
    { unfold addr_text, user_part. destruct Fu' as [|c u C Fu']; [cbn in Lu; lia|]. cbn [app skip_to].
      replace (in_class addr_host_class c) with true by (symmetry; apply class_addr_host; left; exact C). reflexivity. }
    rewrite Sk. unfold extract_at, extract_user, addr_text, user_part. rewrite <- app_assoc.
    rewrite (span_full 254 addr_user_class u); [|lia|eapply Forall_iff; [intros; apply class_addr_user|exact Fu']|intros _; reflexivity].
    cbn [app]. destruct u as [|u0 u]; [cbn in Lu; lia|]. rewrite Eh at 1. cbn [app]. rewrite H0.
    rewrite (span_full 255 addr_host_class h); [|lia|eapply Forall_iff; [intros; apply class_addr_host|exact Fh]|intros _; reflexivity].
    rewrite Eh at 1. cbn [port_part app].
    replace p with (p ++ []) by apply app_nil_r.
    rewrite (span_full 5 digit_class p); [|lia|eapply Forall_iff; [intros; apply class_addr_digit|exact Fp]|intros _; exact I].
    rewrite app_nil_r. destruct p; [congruence|]. rewrite Eh. reflexivity. }
  unfold parse_rti_addr. rewrite Ex. cbn [a_host a_port a_user].
  rewrite (C49_host_accepts h Hh). cbn [negb].
  destruct (C49_port p) as (b & Eb & Bb); [eapply Forall_impl; [|exact Fp]; unfold is_dec; intros; lia|].
  rewrite Eb. cbn [bind]. replace b with true by (symmetry; apply Bb; exists n; split; auto).
  assert (Ea : atoi p = Ok n). { unfold atoi. rewrite (number_writes n p Wp). pose proof (writes_nonneg _ _ Wp). replace (in_int32b n) with true by (unfold in_int32b; lia). reflexivity. }
  rewrite Ea. cbn [bind rti_host rti_port rti_user]. replace (validate_user u) with true by (symmetry; now apply C49_user). reflexivity.
Qed.

(** C49: conversely, an address is accepted only if the part taken from it has a
    host that passes the test of hosts (C49_host), a port, if any, that is a
    decimal number up to 65535 and is the one used, and a valid user name, if any. *)
Theorem C49_accepted s m m' : parse_rti_addr s m = Ok (SUCCESS, m') ->
  exists a, extract s = Some a /\ validate_host (a_host a) = true /\ rti_host m' = Some (a_host a) /\
    match a_port a with None => rti_port m' = rti_port m | Some p => port_text p (rti_port m') end /\
    match a_user a with None => rti_user m' = rti_user m | Some u => user_name u /\ rti_user m' = Some u end.
Proof.
  unfold parse_rti_addr. pose proof (C49_extract s) as X. destruct (extract s) as [a|]; [|discriminate].
  destruct X as (pre & post & _ & Pok & _). intros E.
  destruct (validate_host (a_host a)) eqn:Vh; [|discriminate]. cbn [negb] in E. exists a. split; [reflexivity|]. split; [exact Vh|].
  assert (P : exists m1, (match a_port a with
                 | None => Ok (Some (mkMeta (Some (a_host a)) (rti_port m) (rti_user m)))
                 | Some p => do! b <- validate_port p; if b then do! n <- atoi p; Ok (Some (mkMeta (Some (a_host a)) n (rti_user m))) else Ok None end) = Ok (Some m1) /\
      rti_host m1 = Some (a_host a) /\ rti_user m1 = rti_user m /\
      match a_port a with None => rti_port m1 = rti_port m | Some p => port_text p (rti_port m1) end).
  { cbn [rti_host rti_port rti_user] in E. destruct (a_port a) as [p|] eqn:Ep.
    - assert (Fp : Forall (fun c => 0 < c < 128) p).
      { destruct Pok as (_ & _ & _ & Pp). destruct (Pp p eq_refl) as [_ Fp]. eapply Forall_impl; [|exact Fp]. unfold is_dec. intros; lia. }
      destruct (C49_port p Fp) as (b & Eb & Bb). rewrite Eb in E |- *. cbn [bind] in E |- *. destruct b; [|cbn [bind] in E; discriminate].
      destruct (proj1 Bb eq_refl) as (n & Hn). assert (Ea : atoi p = Ok n).
      { destruct Hn as (Wp & _ & Np). unfold atoi. rewrite (number_writes n p Wp). pose proof (writes_nonneg _ _ Wp). replace (in_int32b n) with true by (unfold in_int32b; lia). reflexivity. }
      rewrite Ea. cbn [bind]. eexists. split; [reflexivity|]. cbn. auto.
    - eexists. split; [reflexivity|]. cbn. auto. }
  cbn [rti_host rti_port rti_user] in E. destruct P as (m1 & P1 & P2 & P3 & P4). rewrite P1 in E. cbn [bind] in E.
  destruct (a_user a) as [u|] eqn:Eu.
  - destruct (validate_user u) eqn:Vu; [|discriminate]. injection E as <-. cbn. split; [exact P2|]. split; [exact P4|]. split; [now apply C49_user|reflexivity].
  - injection E as <-. split; [exact P2|]. split; [exact P4|exact P3].
Qed.
Example C49_accepted_ex : parse_rti_addr (lit "lf@rti:65535") metadata0 = Ok (SUCCESS, mkMeta (Some (lit "rti")) 65535 (Some (lit "lf"))) /\
  parse_rti_addr (lit "lf@rti:65536") metadata0 = Ok (INVALID_PORT, mkMeta (Some (lit "rti")) (-1) None) /\
  parse_rti_addr (lit "9lf@rti:80") metadata0 = Ok (INVALID_USER, mkMeta (Some (lit "rti")) 80 None).
Proof. vm_compute. auto. Qed.

(** C49: a port between 1 and 32767 in such an address is the port that is tried,
    whatever port the program was generated with. *)
Theorem C49_port_used u h p n m given :
  user_name u -> Forall user_char u -> ipv4_text h \/ host_name h -> Forall addr_host_char h -> (List.length h <= 255)%nat -> port_text p n ->
  1 <= n <= 32767 ->
  exists m', parse_rti_addr (addr_text (Some u) h (Some p)) m = Ok (SUCCESS, m') /\ connect_port m' given = n.
Proof.
  intros Hu Fu Hh Fh Lh Hp H. eexists. split; [apply C49_address; eassumption|].
  unfold connect_port. cbn [rti_port]. replace (0 <=? n) with true by lia. replace ((n <? 0) || (32767 <? n)) with false by lia.
  replace (n =? 0) with false by lia. reflexivity.
Qed.

Example C49_address_ex :
  parse_rti_addr (lit "lf@rti-1.example.org:15045") metadata0 = Ok (SUCCESS, mkMeta (Some (lit "rti-1.example.org")) 15045 (Some (lit "lf"))) /\
  lit "lf@rti-1.example.org:15045" = addr_text (Some (lit "lf")) (lit "rti-1.example.org") (Some (lit "15045")).
Proof. split; vm_compute; reflexivity. Qed.

(** Findings.  A valid port above 32767 is not used: the default port is. *)
Theorem C49_high_port_refuted : exists s n m,
  port_text s n /\ parse_rti_addr (addr_text None (lit "rti") (Some s)) metadata0 = Ok (SUCCESS, m) /\ rti_port m = n /\
  connect_port m 0 <> n.
Proof.
  exists (lit "40000"), 40000. eexists. split.
  - split; [|split; [cbn; lia|lia]]. exists [4; 0; 0; 0; 0]. split; [discriminate|]. split; [repeat constructor; lia|]. split; reflexivity.
  - split; [vm_compute; reflexivity|]. split; [reflexivity|]. vm_compute. discriminate.
Qed.
(** A port of more than five digits is not rejected but cut off. *)
Theorem C49_long_port_refuted : exists m,
  parse_rti_addr (lit "rti:123456") metadata0 = Ok (SUCCESS, m) /\ rti_port m = 12345.
Proof. eexists. split; [vm_compute; reflexivity|reflexivity]. Qed.
(** A port that is not a number is ignored without an error. *)
Theorem C49_bad_port_refuted : exists m,
  parse_rti_addr (lit "rti:http") metadata0 = Ok (SUCCESS, m) /\ rti_port m = -1.
Proof. eexists. split; [vm_compute; reflexivity|reflexivity]. Qed.

Print Assumptions C49_port.
Print Assumptions C49_port_byte_refuted.
Print Assumptions C49_host.
Print Assumptions C49_host_accepts.
Print Assumptions C49_host_refuted.
Print Assumptions C49_user.
Print Assumptions C49_extract.
Print Assumptions C49_address.
Print Assumptions C49_port_used.
Print Assumptions C49_high_port_refuted.
Print Assumptions C49_long_port_refuted.
Print Assumptions C49_bad_port_refuted.
Print Assumptions C49_accepted.
