(** Proofs about printed messages (C95). *)
From Verif Require Import Base CText Logging LoggingSpec.
From Coq Require Import String.
Local Open Scope Z_scope.
Local Open Scope list_scope.

Lemma vprintf_plain conv a : forall b args t, ~ In 37 a -> vprintf conv None b args = Ok t -> vprintf conv None (a ++ b) args = Ok (a ++ t).
Proof.
  induction a as [|c a IH]; intros b args t N E; cbn [app]; [exact E|].
  cbn [vprintf]. replace (c =? percent) with false.
  - rewrite (IH b args t); [reflexivity| |exact E]. intros K. apply N. now right.
  - symmetry. apply Z.eqb_neq. intros ->. apply N. now left.
Qed.
Lemma vprintf_newline conv : forall f spec args t, vprintf conv spec f args = Ok t -> vprintf conv spec (f ++ [newline]) args = Ok (t ++ [newline]).
Proof.
  induction f as [|c f IH]; intros spec args t E; cbn [vprintf] in E; cbn [app].
  - destruct spec; [discriminate|]. injection E as <-. reflexivity.
  - cbn [vprintf]. destruct spec as [acc|].
    + destruct (modifier c); [apply IH; exact E|]. destruct (c =? percent).
      * destruct acc; [|discriminate]. destruct (vprintf conv None f args) as [r|] eqn:Er; [|discriminate]. cbn [bind] in E. injection E as <-.
        rewrite (IH _ _ _ Er). reflexivity.
      * destruct args as [|a args]; [discriminate|]. destruct (conv (acc ++ [c]) a) as [u|]; [|discriminate].
        destruct (vprintf conv None f args) as [r|] eqn:Er; [|discriminate]. cbn [bind] in E. injection E as <-.
        rewrite (IH _ _ _ Er). cbn [bind]. rewrite <- app_assoc. reflexivity.
    + destruct (c =? percent); [apply IH; exact E|]. destruct (vprintf conv None f args) as [r|] eqn:Er; [|discriminate]. cbn [bind] in E. injection E as <-.
      rewrite (IH _ _ _ Er). reflexivity.
Qed.

Lemma dec_length n : forall v, (List.length (dec n v) <= n)%nat.
Proof. induction n as [|n IH]; intros v; cbn [dec]; [cbn; lia|]. destruct (v <? 10); [cbn; lia|]. rewrite app_length. cbn. specialize (IH (v / 10)). lia. Qed.
Lemma dec_digits n : forall v, 0 <= v -> Forall (fun d => 48 <= d <= 57) (dec n v).
Proof.
  induction n as [|n IH]; intros v Hv; cbn [dec]; [constructor|]. destruct (v <? 10) eqn:E.
  - apply Z.ltb_lt in E. constructor; [lia|constructor].
  - apply Forall_app. split; [apply IH; apply Z.div_pos; lia|]. pose proof (Z.mod_pos_bound v 10). constructor; [lia|constructor].
Qed.
Lemma digits_app a : forall acc d, Forall (fun d => 48 <= d <= 57) a -> 48 <= d <= 57 -> digits acc (a ++ [d]) = 10 * digits acc a + (d - 48).
Proof.
  induction a as [|x a IH]; intros acc d Ha Hd; cbn [app digits].
  - replace (is_digit d) with true by (symmetry; apply andb_true_intro; split; apply Z.leb_le; lia). reflexivity.
  - inversion_clear Ha. replace (is_digit x) with true by (symmetry; apply andb_true_intro; split; apply Z.leb_le; lia). apply IH; auto.
Qed.
Lemma dec_value n : forall v, 0 <= v < 10 ^ Z.of_nat n -> (0 < n)%nat -> digits 0 (dec n v) = v.
Proof.
  induction n as [|n IH]; intros v Hv Hn; [lia|]. cbn [dec]. destruct (v <? 10) eqn:E.
  - apply Z.ltb_lt in E. cbn [digits]. replace (is_digit (48 + v)) with true by (symmetry; apply andb_true_intro; split; apply Z.leb_le; lia). lia.
  - apply Z.ltb_ge in E. pose proof (Z.mod_pos_bound v 10). pose proof (Z.div_mod v 10).
    assert (Hd : 0 <= v / 10 < 10 ^ Z.of_nat n).
    { split; [apply Z.div_pos; lia|]. apply Z.div_lt_upper_bound; [lia|]. rewrite Nat2Z.inj_succ, Z.pow_succ_r in Hv by lia. lia. }
    assert (0 < n)%nat. { destruct n; [|lia]. cbn in Hd. lia. }
    rewrite digits_app; [|apply dec_digits; lia|lia]. rewrite IH by auto. lia.
Qed.
Lemma dec_number v : 0 <= v <= 2147483647 -> number (dec 10 v) = v.
Proof.
  intros Hv. assert (D : Forall (fun d => 48 <= d <= 57) (dec 10 v)) by (apply dec_digits; lia).
  assert (V : digits 0 (dec 10 v) = v) by (apply dec_value; [change (10 ^ Z.of_nat 10) with 10000000000|]; lia).
  destruct (dec 10 v) as [|c r] eqn:E.
  { exfalso. cbn [dec] in E. destruct (v <? 10); [discriminate|]. symmetry in E. revert E. apply app_cons_not_nil. }
  inversion_clear D. unfold number. cbn [skip_space].
  replace (is_space c) with false.
  - destruct c as [|p|p]; try lia. do 6 (destruct p as [p|p|]; try lia; try exact V).
  - symmetry. unfold is_space. apply Bool.orb_false_iff. split; [apply Z.eqb_neq; lia|]. apply Bool.andb_false_iff. right. apply Z.leb_gt. lia.
Qed.

Lemma strn_prefix p : forall name, strn_eqb (List.length p) name p = true <-> exists r, name = p ++ r.
Proof.
  induction p as [|c p IH]; intros name; cbn [List.length strn_eqb].
  - split; [intros _; exists name; reflexivity|reflexivity].
  - destruct name as [|x name]; [split; [discriminate|intros (r & K); discriminate]|]. rewrite Bool.andb_true_iff, IH, Z.eqb_eq. split.
    + intros (-> & r & ->). exists r. reflexivity.
    + intros (r & K). cbn [app] in K. injection K as -> ->. eauto.
Qed.

Lemma compose_is p prefix format : proper p -> exists who, identifies p who /\ ~ In 37 who /\ compose p prefix format = who ++ prefix ++ format ++ [newline].
Proof.
  destruct p as [| |id name]; intros P.
  - exists []. split; [reflexivity|]. split; [auto|]. unfold compose, snprintf. apply firstn_all2. rewrite !app_length. cbn [List.length]. lia.
  - exists (lit "RTI: "). split; [reflexivity|]. split; [cbn; intuition discriminate|]. unfold compose, snprintf.
    apply firstn_all2. rewrite !app_length. cbn [List.length lit]. lia.
  - destruct P as (Hi & Hn). pose proof (dec_digits 10 id) as D. specialize (D ltac:(lia)).
    set (short := if strn_eqb 10 name (lit "federate__") then skipn 10 name else name).
    assert (X : name = lit "federate__" ++ short \/ (name = short /\ ~ exists r, name = lit "federate__" ++ r)).
    { unfold short. pose proof (strn_prefix (lit "federate__") name) as Q. change (List.length (lit "federate__")) with 10%nat in Q.
      destruct (strn_eqb 10 name (lit "federate__")).
      - left. destruct (proj1 Q eq_refl) as (r & ->). reflexivity.
      - right. split; [reflexivity|]. intros K. apply Q in K. discriminate. }
    assert (Ls : (List.length short <= List.length name)%nat) by (unfold short; destruct (strn_eqb _ _ _); [rewrite skipn_length|]; lia).
    assert (Ns : ~ In 37 short).
    { intros K. apply Hn. destruct X as [X|(X & _)]; rewrite X; [apply in_or_app; now right|exact K]. }
    exists (lit "Fed " ++ dec 10 id ++ lit " (" ++ short ++ lit "): "). split; [|split].
    + exists (dec 10 id), short. split; [apply dec_number; exact Hi|]. auto.
    + rewrite !in_app_iff. intros [K|[K|[K|[K|K]]]].
      * cbn in K. intuition discriminate.
      * rewrite Forall_forall in D. apply D in K. lia.
      * cbn in K. intuition discriminate.
      * exact (Ns K).
      * cbn in K. intuition discriminate.
    + unfold compose. fold short. unfold snprintf. rewrite <- !app_assoc. apply firstn_all2. rewrite !app_length.
      pose proof (dec_length 10 id). change (List.length (lit "Fed ")) with 4%nat. change (List.length (lit " (")) with 2%nat. change (List.length (lit "): ")) with 3%nat.
      cbn [List.length]. lia.
Qed.

Lemma prefix_plain k : ~ In 37 (prefix_of k).
Proof. destruct k; cbn; intuition discriminate. Qed.
(** The level. *)
Lemma message_print_is c s k format args t : proper (c_process c) -> 0 <= c_level c -> asks c format args t ->
  exists who, identifies (c_process c) who /\
  if importance k <=? Z.max (c_level c) (fn_level s)
  then exists e, message_print c (reads_same s) (prefix_of k) format args (importance k) = Ok [e] /\ writes c e (fn s) (who ++ prefix_of k ++ t ++ [10])
  else message_print c (reads_same s) (prefix_of k) format args (importance k) = Ok [].
Proof.
  intros P L A. destruct (compose_is (c_process c) (prefix_of k) format P) as (who & W & N & C). exists who. split; [exact W|].
  unfold message_print. cbn [reads_same s1 s2 s3 s4].
  set (pl := if c_level c <? fn_level s then fn_level s else c_level c).
  assert (M : pl = Z.max (c_level c) (fn_level s)) by (unfold pl; destruct (Z.ltb_spec (c_level c) (fn_level s)); lia).
  replace (pl <? 0) with false by (symmetry; apply Z.ltb_ge; lia). rewrite M. destruct (importance k <=? _); [|reflexivity].
  rewrite C.
  assert (E : vprintf (c_conv c) None (who ++ prefix_of k ++ format ++ [newline]) args = Ok (who ++ prefix_of k ++ t ++ [10])).
  { apply vprintf_plain; [exact N|]. apply vprintf_plain; [apply prefix_plain|]. apply vprintf_newline. exact A. }
  destruct (fn s) as [f|].
  - eexists. split; [reflexivity|]. unfold writes. eexists _, args. split; [reflexivity|]. exact E.
  - rewrite E. cbn [bind]. eexists. split; reflexivity.
Qed.
Lemma run_app c : forall ops s rest, Forall (fun o => match o with Print Fatal _ _ => False | _ => True end) ops ->
  run c s (ops ++ rest) = do! a <- run c s ops; do! b <- run c (mkState (fst (registered (fn s, fn_level s) ops)) (snd (registered (fn s, fn_level s) ops))) rest; Ok (a ++ b).
Proof.
  induction ops as [|o ops IH]; intros s rest F; cbn [app run registered].
  - cbn [bind fst snd app]. destruct s as [f l]. cbn [fn fn_level]. destruct (run c (mkState f l) rest); reflexivity.
  - inversion_clear F as [|? ? F1 F2]. destruct o as [f l|k format args].
    + rewrite IH by exact F2. reflexivity.
    + destruct (print c (reads_same s) k format args) as [e|]; [|reflexivity]. cbn [bind].
      destruct k; try contradiction; rewrite IH by exact F2; (destruct (run c s ops); [|reflexivity]); cbn [bind];
        (destruct (run c _ rest); [|reflexivity]); cbn [bind]; rewrite <- app_assoc; reflexivity.
Qed.
