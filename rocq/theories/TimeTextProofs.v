(** Proofs about the printing of times (C06). *)
From Verif Require Import Base Pqueue PqueueProofs TimeText TimeTextSpec.
From Coq Require Import Ascii String.
Open Scope Z_scope.
Ltac Zify.zify_post_hook ::= Z.div_mod_to_equations.
Notation length := List.length.

(** ** Memory *)
Definition wrote (b0 : cbuf) (p : nat) (b : cbuf) (l : list ascii) : Prop :=
  (forall k c, nth_error l k = Some c -> b_mem b (p + k)%nat = c) /\ (forall k, (k < p)%nat -> b_mem b k = b_mem b0 k) /\ (b_hi b <= Nat.max (b_hi b0) (p + length l + 1))%nat.

Lemma write_chars_below l : forall b p k, (k < p)%nat -> b_mem (write_chars b p l) k = b_mem b k.
Proof. induction l as [|c l IH]; intros b p k H; [reflexivity|]. cbn [write_chars]. rewrite IH by lia. cbn. apply upd_neq. lia. Qed.
Lemma write_chars_at l : forall b p k c, nth_error l k = Some c -> b_mem (write_chars b p l) (p + k)%nat = c.
Proof.
  induction l as [|x l IH]; intros b p k c H; [destruct k; discriminate|]. cbn [write_chars]. destruct k as [|k].
  - injection H as ->. rewrite Nat.add_0_r, write_chars_below by lia. cbn. apply upd_eq.
  - replace (p + S k)%nat with (S p + k)%nat by lia. apply IH. exact H.
Qed.
Lemma write_chars_hi l : forall b p, (b_hi (write_chars b p l) <= Nat.max (b_hi b) (p + length l))%nat.
Proof. induction l as [|x l IH]; intros b p; cbn [write_chars]; [lia|]. specialize (IH (mkBuf (upd (b_mem b) p x) (Nat.max (b_hi b) (S p))) (S p)). cbn in *. lia. Qed.

Lemma wrote_nil b p : wrote b p b [].
Proof. split; [intros k c H; destruct k; discriminate|]. split; [auto|lia]. Qed.
Lemma wrote_put b0 p b l n s : wrote b0 p b l -> (length s <= n - 1)%nat -> wrote b0 p (snprintf b (p + length l) n s) (l ++ s) /\ b_mem (snprintf b (p + length l) n s) (p + length l + length s)%nat = NUL.
Proof.
  intros (W1 & W2 & W3) Hn. unfold snprintf. rewrite firstn_all2 by exact Hn. split; [split; [|split]|].
  - intros k c H. destruct (lt_dec k (length l)) as [K|K].
    + rewrite write_chars_below by lia. apply W1. rewrite nth_error_app1 in H by exact K. exact H.
    + rewrite nth_error_app2 in H by lia. replace (p + k)%nat with (p + length l + (k - length l))%nat by lia. apply write_chars_at. rewrite nth_error_app1; [exact H|]. apply nth_error_Some. congruence.
  - intros k K. rewrite write_chars_below by lia. apply W2, K.
  - pose proof (write_chars_hi (s ++ [NUL]) b (p + length l)) as K. rewrite app_length in *. cbn [length] in K. lia.
  - apply write_chars_at. rewrite nth_error_app2 by lia. rewrite Nat.sub_diag. reflexivity.
Qed.
Lemma wrote_trans b0 p b1 l1 b2 l2 : wrote b0 p b1 l1 -> wrote b1 (p + length l1) b2 l2 -> wrote b0 p b2 (l1 ++ l2).
Proof.
  intros (A1 & A2 & A3) (B1 & B2 & B3). split; [|split].
  - intros k c H. destruct (lt_dec k (length l1)) as [K|K]; [rewrite B2 by lia; apply A1; rewrite nth_error_app1 in H by exact K; exact H|].
    rewrite nth_error_app2 in H by lia. replace (p + k)%nat with (p + length l1 + (k - length l1))%nat by lia. apply B1, H.
  - intros k K. rewrite B2 by lia. apply A2, K.
  - rewrite app_length. lia.
Qed.
Lemma text_wrote b l : forall p fuel, (forall k c, nth_error l k = Some c -> b_mem b (p + k)%nat = c) -> b_mem b (p + length l)%nat = NUL -> ~ In NUL l -> (length l < fuel)%nat -> text_from (b_mem b) p fuel = l.
Proof.
  induction l as [|c l IH]; intros p fuel H E N F; (destruct fuel as [|fuel]; [cbn in F; lia|]); cbn [text_from].
  - cbn [List.length] in E. rewrite Nat.add_0_r in E. rewrite E. reflexivity.
  - pose proof (H 0%nat c eq_refl) as K. rewrite Nat.add_0_r in K. rewrite K. destruct (Ascii.eqb_spec c NUL) as [->|n]; [destruct N; now left|]. f_equal. apply IH.
    + intros k c' Hk. replace (S p + k)%nat with (p + S k)%nat by lia. apply H. exact Hk.
    + cbn [List.length] in E. rewrite <- E. f_equal. lia.
    + intros K2. apply N. now right.
    + cbn in F. lia.
Qed.

(** ** Digits *)
Lemma decimal_small f v : 0 <= v < 10 -> decimal (S f) v = [num v].
Proof. intros H. cbn [decimal]. replace (v <? 10) with true by lia. reflexivity. Qed.
Lemma decimal_step f v : 10 <= v -> decimal (S f) v = decimal f (v / 10) ++ [num (v mod 10)].
Proof. intros H. cbn [decimal]. replace (v <? 10) with false by lia. reflexivity. Qed.
Lemma fmt_d_grouped v : 0 <= v < 1000 -> grouped (fmt_d v) v /\ length (fmt_d v) = (if Z.leb 100 v then 3 else if Z.leb 10 v then 2 else 1)%nat.
Proof.
  intros H. unfold fmt_d. destruct (Z.leb_spec 100 v); [|destruct (Z.leb_spec 10 v)].
  - rewrite !decimal_step by lia. rewrite decimal_small by lia. cbn [app length]. split; [|reflexivity].
    replace v with (100 * (v / 10 / 10) + 10 * (v / 10 mod 10) + v mod 10) at 4 by lia. constructor; lia.
  - rewrite decimal_step, decimal_small by lia. cbn [app length]. split; [|reflexivity]. replace v with (10 * (v / 10) + v mod 10) at 3 by lia. constructor; lia.
  - rewrite decimal_small by lia. split; [constructor; lia|reflexivity].
Qed.
Lemma fmt_03d_digits v : 0 <= v < 1000 -> fmt_03d v = [num (v / 100); num (v / 10 mod 10); num (v mod 10)].
Proof.
  intros H. unfold fmt_03d, fmt_d. destruct (Z.leb_spec 100 v); [|destruct (Z.leb_spec 10 v)].
  - rewrite !decimal_step by lia. rewrite decimal_small by lia. cbn [app length repeat Nat.sub]. replace (v / 10 / 10) with (v / 100) by lia. reflexivity.
  - rewrite decimal_step, decimal_small by lia. cbn [app length repeat Nat.sub]. replace (v / 100) with 0 by lia. replace (v / 10 mod 10) with (v / 10) by lia. reflexivity.
  - rewrite decimal_small by lia. cbn [app length repeat Nat.sub]. replace (v / 100) with 0 by lia. replace (v / 10 mod 10) with 0 by lia. replace (v mod 10) with v by lia. reflexivity.
Qed.

Definition rest_text (l : list Z) : list ascii := flat_map (fun c => ","%char :: fmt_03d (c mod 1000)) l.
Lemma clauses_grouped room : forall t l, clauses room t = Ok l -> 0 < t -> exists top rest, rev l = top :: rest /\ grouped (fmt_d (top mod 1000) ++ rest_text rest) t.
Proof.
  induction room as [|room IH]; intros t l E Ht; cbn [clauses] in E; replace (t <=? 0) with false in E by lia; [discriminate|].
  destruct (clauses room (t / 1000)) as [l'|] eqn:E'; [|discriminate]. cbn in E. injection E as <-. cbn [rev]. destruct (Z_le_gt_dec (t / 1000) 0) as [K|K].
  - assert (l' = []) as ->. { destruct room; cbn [clauses] in E'; replace (t / 1000 <=? 0) with true in E' by lia; injection E' as <-; reflexivity. }
    exists t, []. split; [reflexivity|]. cbn [rest_text flat_map]. rewrite app_nil_r. replace (t mod 1000) with t by lia. apply fmt_d_grouped. lia.
  - destruct (IH _ _ E' ltac:(lia)) as (top & rest & Er & G). rewrite Er. exists top, (rest ++ [t]). split; [reflexivity|]. unfold rest_text in *. rewrite flat_map_app, app_assoc. cbn [flat_map]. rewrite app_nil_r, fmt_03d_digits by lia.
    replace t with (1000 * (t / 1000) + 100 * (t mod 1000 / 100) + 10 * (t mod 1000 / 10 mod 10) + t mod 1000 mod 10) at 4 by lia. apply grouped_more; [exact G|lia|lia|lia|lia].
Qed.
Lemma clauses_ok room : forall t, t < 1000 ^ Z.of_nat room -> exists l, clauses room t = Ok l.
Proof.
  induction room as [|room IH]; intros t H; cbn [clauses]; destruct (Z.leb_spec t 0); eauto; [cbn in H; lia|].
  destruct (IH (t / 1000)) as (l & ->); [|cbn; eauto]. replace (Z.of_nat (S room)) with (Z.of_nat room + 1) in H by lia. rewrite Z.pow_add_r in H by lia. change (1000 ^ 1) with 1000 in H. apply Z.div_lt_upper_bound; lia.
Qed.
Lemma rest_length l : length (rest_text l) = (4 * length l)%nat.
Proof. induction l as [|c l IH]; [reflexivity|]. cbn [rest_text flat_map]. rewrite app_length. fold (rest_text l). rewrite IH. rewrite fmt_03d_digits by lia. cbn [length]. lia. Qed.

Lemma print_rest_wrote b0 p l : forall b t, wrote b0 p b t -> b_mem b (p + length t)%nat = NUL ->
  wrote b0 p (fst (print_rest b (p + length t) l)) (t ++ rest_text l) /\ snd (print_rest b (p + length t) l) = (p + length (t ++ rest_text l))%nat /\ b_mem (fst (print_rest b (p + length t) l)) (p + length (t ++ rest_text l))%nat = NUL.
Proof.
  induction l as [|c l IH]; intros b t W N; cbn [print_rest rest_text flat_map]; [rewrite app_nil_r; auto|]. fold (rest_text l).
  assert (L : length (","%char :: fmt_03d (c mod 1000)) = 4%nat) by (rewrite fmt_03d_digits by lia; reflexivity).
  destruct (wrote_put b0 p b t 8 (","%char :: fmt_03d (c mod 1000)) W) as (W' & N'); [rewrite L; lia|].
  rewrite app_assoc. set (w := ","%char :: fmt_03d (c mod 1000)) in *. replace (p + length t + 4)%nat with (p + length (t ++ w))%nat by (rewrite app_length, L; lia). apply IH; [exact W'|]. rewrite app_length, Nat.add_assoc. exact N'.
Qed.

(** [lf_comma_separated_time] on a non-negative 64-bit number. *)
Lemma comma_ok b p time : 0 <= time <= LLONG_MAX -> exists b' l, comma_separated b p time = Ok (b', (p + length l)%nat) /\ wrote b p b' l /\ b_mem b' (p + length l)%nat = NUL /\ grouped l time.
Proof.
  intros H. unfold comma_separated. destruct (Z.eqb_spec time 0) as [->|n].
  - pose proof (wrote_put b p b [] 2 ["0"%char] (wrote_nil b p)) as K. cbn [length app Nat.sub] in K. rewrite Nat.add_0_r in K. destruct K as (K1 & K2); [lia|]. exists (snprintf b p 2 ["0"%char]), ["0"%char]. split; [reflexivity|]. split; [exact K1|]. split; [exact K2|]. apply (grouped_1 0). lia.
  - replace (time <? 0) with false by lia. destruct (clauses_ok 7 time) as (l & El); [change (1000 ^ Z.of_nat 7) with 1000000000000000000000; unfold LLONG_MAX in H; lia|].
    rewrite El. cbn [bind]. destruct (clauses_grouped 7 time l El ltac:(lia)) as (top & rest & Er & G). rewrite Er. set (v := top mod 1000) in *. destruct (fmt_d_grouped v ltac:(lia)) as (_ & Lv).
    pose proof (wrote_put b p b [] 5 (fmt_d v) (wrote_nil b p)) as K. cbn [length app Nat.sub] in K. rewrite Nat.add_0_r in K. destruct K as (K1 & K2); [rewrite Lv; destruct (Z.leb 100 v), (Z.leb 10 v); lia|].
    rewrite <- Lv. destruct (print_rest_wrote b p rest (snprintf b p 5 (fmt_d v)) (fmt_d v) K1 K2) as (R1 & R2 & R3).
    destruct (print_rest _ _ _) as [b' q]. cbn [fst snd] in *. exists b', (fmt_d v ++ rest_text rest). rewrite R2. auto.
Qed.

(** ** Lengths *)
Lemma grouped_nonneg l v : grouped l v -> 0 <= v.
Proof. induction 1; lia. Qed.
Lemma grouped_len l v : grouped l v -> (v < 100 -> (length l <= 2)%nat) /\ (v < 1000 -> (length l <= 3)%nat) /\ (v < 1000000 -> (length l <= 7)%nat) /\ (v < 1000000000 -> (length l <= 11)%nat).
Proof.
  induction 1 as [a Ha|a b Ha Hb|a b c Ha Hb Hc|l v a b c G IH Hv Ha Hb Hc]; cbn [length]; try lia. rewrite app_length. cbn [length]. destruct IH as (I1 & I2 & I3 & I4). repeat split; intros K; try lia.
Qed.
Lemma num_not_nul d : 0 <= d < 10 -> num d <> NUL.
Proof. intros H. assert (K : d = 0 \/ d = 1 \/ d = 2 \/ d = 3 \/ d = 4 \/ d = 5 \/ d = 6 \/ d = 7 \/ d = 8 \/ d = 9) by lia. repeat (destruct K as [->|K]; [vm_compute; discriminate|]). subst d. vm_compute. discriminate. Qed.
Lemma grouped_not_nul l v : grouped l v -> ~ In NUL l.
Proof.
  induction 1 as [a Ha|a b Ha Hb|a b c Ha Hb Hc|l v a b c G IH Hv Ha Hb Hc]; intros K.
  - destruct K as [K|[]]. revert K. apply num_not_nul. lia.
  - destruct K as [K|[K|[]]]; revert K; apply num_not_nul; lia.
  - destruct K as [K|[K|[K|[]]]]; revert K; apply num_not_nul; lia.
  - apply in_app_or in K. destruct K as [K|[K|[K|[K|[K|[]]]]]]; [exact (IH K)|discriminate K| | |]; revert K; apply num_not_nul; lia.
Qed.
Lemma not_nul_check l : existsb (Ascii.eqb NUL) l = false -> ~ In NUL l.
Proof. intros H K. assert (E : existsb (Ascii.eqb NUL) l = true) by (apply existsb_exists; exists NUL; split; [exact K|reflexivity]). congruence. Qed.
Lemma unit_not_nul name u : unit_ns name = Some u -> ~ In NUL (list_ascii_of_string name).
Proof.
  unfold unit_ns. intros H.
  repeat match type of H with (if String.eqb name ?x then _ else _) = _ => destruct (String.eqb_spec name x) as [->|_]; [apply not_nul_check; reflexivity|] end. discriminate H.
Qed.
Lemma durations_not_nul l t : durations l t -> ~ In NUL l.
Proof.
  induction 1 as [l v name u G Hv U|l1 t l v name u D IH G Hv U]; intros K.
  - apply in_app_or in K. destruct K as [K|[K|K]]; [exact (grouped_not_nul _ _ G K)|discriminate K|exact (unit_not_nul _ _ U K)].
  - apply in_app_or in K. destruct K as [K|K]; [exact (IH K)|]. cbn [app] in K. destruct K as [K|[K|K]]; [discriminate K|discriminate K|]. apply in_app_or in K. destruct K as [K|[K|K]]; [exact (grouped_not_nul _ _ G K)|discriminate K|exact (unit_not_nul _ _ U K)].
Qed.

(** ** The clauses of [lf_readable_time] *)
Definition stage (b0 : cbuf) (x : rt) (acc : Z) (L : list ascii) (bound : nat) : Prop :=
  wrote b0 0 (rt_buf x) L /\ rt_pos x = length L /\ (length L <= bound)%nat /\ (rt_lead x = false -> L = [] /\ acc = 0) /\
  (rt_lead x = true -> durations L acc /\ b_mem (rt_buf x) (length L) = NUL).

Lemma lead_ok b0 x acc L bound : stage b0 x acc L bound -> exists L1, wrote b0 0 (fst (lead_in x)) L1 /\ snd (lead_in x) = length L1 /\ (length L1 <= bound + 2)%nat /\
  forall l v name u, grouped l v -> 0 < v -> unit_ns name = Some u -> durations (L1 ++ l ++ " "%char :: list_ascii_of_string name) (acc + v * u).
Proof.
  intros (W & P & B & F & T). unfold lead_in. destruct (rt_lead x).
  - destruct (T eq_refl) as (D & N). destruct (wrote_put b0 0 (rt_buf x) L 3 [","%char; " "%char] W) as (W1 & _); [cbn; lia|]. cbn [fst snd]. rewrite P. exists (L ++ [","%char; " "%char]).
    split; [exact W1|]. rewrite app_length. cbn [length]. split; [reflexivity|]. split; [lia|]. intros l v name u G Hv U. rewrite <- app_assoc. apply durations_more; assumption.
  - destruct (F eq_refl) as (-> & ->). exists []. cbn [fst snd]. split; [exact W|]. split; [exact P|]. split; [cbn; lia|]. intros l v name u G Hv U. cbn [app]. apply durations_one; assumption.
Qed.

(** Number and unit after the separator. *)
Lemma ascii_length s : length (list_ascii_of_string s) = String.length s.
Proof. induction s as [|c s IH]; [reflexivity|]. cbn. rewrite IH. reflexivity. Qed.
Lemma part_ok b0 x acc L bound v size name u : stage b0 x acc L bound -> 0 < v <= LLONG_MAX -> unit_ns name = Some u -> size = S (S (String.length name)) ->
  exists bp l L', comma_separated (fst (lead_in x)) (snd (lead_in x)) v = Ok bp /\ grouped l v /\
    forall time lead, (lead = false -> rt_lead x = false) -> wrote b0 0 (snprintf (fst bp) (snd bp) size (" "%char :: list_ascii_of_string name)) L' /\ (snd bp + S (String.length name))%nat = length L' /\
      (length L' <= bound + 2 + length l + S (String.length name))%nat /\ durations L' (acc + v * u) /\ b_mem (snprintf (fst bp) (snd bp) size (" "%char :: list_ascii_of_string name)) (length L') = NUL /\ time = time :> Z.
Proof.
  intros S Hv U Hs. destruct (lead_ok _ _ _ _ _ S) as (L1 & W1 & P1 & B1 & D). destruct (comma_ok (fst (lead_in x)) (snd (lead_in x)) v ltac:(lia)) as (b' & l & E & W2 & N2 & G). rewrite P1 in *.
  exists (b', (length L1 + length l)%nat), l, (L1 ++ l ++ " "%char :: list_ascii_of_string name). split; [exact E|]. split; [exact G|]. intros time lead _. cbn [fst snd].
  pose proof (wrote_trans b0 0 _ L1 b' l W1 W2) as W3.
  destruct (wrote_put b0 0 b' (L1 ++ l) size (" "%char :: list_ascii_of_string name) W3) as (W4 & N4); [cbn [length]; rewrite ascii_length; lia|].
  cbn [Nat.add] in *. rewrite !app_length in *. cbn [length] in *. rewrite ascii_length in *. rewrite <- app_assoc in W4. split; [exact W4|]. split; [lia|]. split; [lia|]. split; [apply D; [exact G|lia|exact U]|]. split; [|reflexivity]. rewrite <- N4. f_equal. lia.
Qed.

Lemma unit_ok b0 x acc L bound unit size adv name lim gl : stage b0 x acc L bound -> 0 <= rt_time x <= lim -> lim <= LLONG_MAX -> unit_ns name = Some unit -> 0 < unit -> size = S (S (String.length name)) -> adv = S (String.length name) ->
  (forall l v, grouped l v -> v <= lim / unit -> (length l <= gl)%nat) ->
  exists x' acc' L', unit_clause unit size adv (" "%char :: list_ascii_of_string name) x = Ok x' /\ stage b0 x' acc' L' (bound + 2 + gl + adv) /\ acc' + rt_time x' = acc + rt_time x /\ 0 <= rt_time x' <= unit.
Proof.
  intros S Ht Hl U Hu -> -> Hg. unfold unit_clause. destruct (Z.ltb_spec unit (rt_time x)) as [K|K].
  - assert (V : 0 < rt_time x / unit <= lim / unit) by (split; [apply Z.div_str_pos; lia|apply Z.div_le_mono; lia]).
    assert (V2 : rt_time x / unit <= LLONG_MAX) by (assert (rt_time x / unit <= rt_time x) by (apply Z.div_le_upper_bound; nia); lia).
    destruct (part_ok _ _ _ _ _ (rt_time x / unit) _ _ _ S ltac:(lia) U eq_refl) as (bp & l & L' & E & G & R). destruct (R 0 true ltac:(discriminate)) as (R1 & R2 & R3 & R4 & R5 & _).
    destruct (lead_in x) as [b p]. cbn [fst snd] in E. rewrite E. cbn [bind]. eexists _, _, L'. split; [reflexivity|]. split; [|split].
    + split; [exact R1|]. split; [exact R2|]. split; [specialize (Hg l _ G ltac:(lia)); lia|]. split; [discriminate|]. intros _. split; [exact R4|exact R5].
    + cbn [rt_time]. pose proof (Z.div_mod (rt_time x) unit ltac:(lia)). lia.
    + cbn [rt_time]. pose proof (Z.mod_pos_bound (rt_time x) unit ltac:(lia)). lia.
  - exists x, acc, L. split; [reflexivity|]. destruct S as (S1 & S2 & S3 & S4 & S5). split; [split; [exact S1|]; split; [exact S2|]; split; [lia|]; split; assumption|]. split; [reflexivity|lia].
Qed.

Lemma readable_ok b0 time : 0 < time <= LLONG_MAX -> exists b l, readable b0 time = Ok (b, length l) /\ wrote b0 0 b l /\ b_mem b (length l) = NUL /\ durations l time /\ (length l <= 63)%nat.
Proof.
  intros H. unfold readable. replace (time <=? 0) with false by lia.
  assert (S0 : stage b0 (mkRt b0 0 time false) 0 [] 0) by (split; [apply wrote_nil|]; split; [reflexivity|]; split; [cbn; lia|]; split; [auto|discriminate]).
  change (list_ascii_of_string " weeks") with (" "%char :: list_ascii_of_string "weeks"). change (list_ascii_of_string " d") with (" "%char :: list_ascii_of_string "d"). change (list_ascii_of_string " h") with (" "%char :: list_ascii_of_string "h").
  change (list_ascii_of_string " min") with (" "%char :: list_ascii_of_string "min"). change (list_ascii_of_string " s") with (" "%char :: list_ascii_of_string "s").
  destruct (unit_ok b0 _ _ _ _ WEEKS 7 6 "weeks" LLONG_MAX 7 S0) as (x1 & a1 & L1 & E1 & S1 & A1 & T1); [cbn [rt_time]; lia|lia|reflexivity|reflexivity|reflexivity|reflexivity| |].
  { intros l v G Hv. apply (grouped_len l v G). change (LLONG_MAX / WEEKS) with 15250 in Hv. lia. }
  rewrite E1. cbn [bind]. cbn [rt_time] in A1.
  destruct (unit_ok b0 _ _ _ _ DAYS 3 2 "d" WEEKS 2 S1 T1) as (x2 & a2 & L2 & E2 & S2 & A2 & T2); [vm_compute; discriminate|reflexivity|reflexivity|reflexivity|reflexivity| |].
  { intros l v G Hv. apply (grouped_len l v G). change (WEEKS / DAYS) with 7 in Hv. lia. }
  rewrite E2. cbn [bind].
  destruct (unit_ok b0 _ _ _ _ HOURS 3 2 "h" DAYS 2 S2 T2) as (x3 & a3 & L3 & E3 & S3 & A3 & T3); [vm_compute; discriminate|reflexivity|reflexivity|reflexivity|reflexivity| |].
  { intros l v G Hv. apply (grouped_len l v G). change (DAYS / HOURS) with 24 in Hv. lia. }
  rewrite E3. cbn [bind].
  destruct (unit_ok b0 _ _ _ _ MINUTES 5 4 "min" HOURS 2 S3 T3) as (x4 & a4 & L4 & E4 & S4 & A4 & T4); [vm_compute; discriminate|reflexivity|reflexivity|reflexivity|reflexivity| |].
  { intros l v G Hv. apply (grouped_len l v G). change (HOURS / MINUTES) with 60 in Hv. lia. }
  rewrite E4. cbn [bind].
  destruct (unit_ok b0 _ _ _ _ SECONDS 3 2 "s" MINUTES 2 S4 T4) as (x5 & a5 & L5 & E5 & S5 & A5 & T5); [vm_compute; discriminate|reflexivity|reflexivity|reflexivity|reflexivity| |].
  { intros l v G Hv. apply (grouped_len l v G). change (MINUTES / SECONDS) with 60 in Hv. lia. }
  rewrite E5. cbn [bind]. clear S0 S1 S2 S3 S4 E1 E2 E3 E4 E5 T1 T2 T3 T4. assert (A : a5 + rt_time x5 = time) by lia. clear A1 A2 A3 A4 A5. cbn [Nat.add] in S5.
  unfold last_clause. destruct (Z.ltb_spec 0 (rt_time x5)) as [K|K].
  - assert (Q : exists units v u, (if rt_time x5 mod MSEC =? 0 then ("ms"%string, rt_time x5 / MSEC) else if rt_time x5 mod USEC =? 0 then ("us"%string, rt_time x5 / USEC) else ("ns"%string, rt_time x5)) = (units, v) /\
       unit_ns units = Some u /\ v * u = rt_time x5 /\ 0 < v < 1000000000 /\ String.length units = 2%nat).
    { unfold MSEC, USEC, SECONDS in *. destruct (Z.eqb_spec (rt_time x5 mod 1000000) 0); [|destruct (Z.eqb_spec (rt_time x5 mod 1000) 0)].
      - exists "ms"%string, (rt_time x5 / 1000000), 1000000. split; [reflexivity|]. split; [reflexivity|]. split; [lia|]. split; [lia|reflexivity].
      - exists "us"%string, (rt_time x5 / 1000), 1000. split; [reflexivity|]. split; [reflexivity|]. split; [lia|]. split; [lia|reflexivity].
      - exists "ns"%string, (rt_time x5), 1. split; [reflexivity|]. split; [reflexivity|]. split; [lia|]. split; [lia|reflexivity]. }
    destruct Q as (units & v & u & Q1 & Q2 & Q3 & Q4 & Q5). rewrite Q1.
    destruct (part_ok _ _ _ _ _ v _ _ _ S5 ltac:(unfold LLONG_MAX; lia) Q2 eq_refl) as (bp & l & L' & E & G & R). destruct (R 0 true ltac:(discriminate)) as (R1 & R2 & R3 & R4 & R5 & _).
    destruct (lead_in x5) as [b p]. cbn [fst snd] in E. rewrite E. cbn [bind]. rewrite Q5 in *. cbn [rt_buf rt_pos]. cbn [Nat.add] in R2. rewrite Nat.add_comm with (n := 2%nat) || idtac.
    exists (snprintf (fst bp) (snd bp) 4 (" "%char :: list_ascii_of_string units)), L'. rewrite <- R2. split; [reflexivity|]. rewrite R2. split; [exact R1|]. split; [exact R5|]. split; [replace time with (a5 + v * u) by lia; exact R4|].
    assert (length l <= 11)%nat by (apply (grouped_len l v G); lia). lia.
  - cbn [bind]. destruct S5 as (W & P & B & F & T). destruct (rt_lead x5); [|destruct (F eq_refl); lia]. destruct (T eq_refl) as (D & N). exists (rt_buf x5), L5. rewrite P. split; [reflexivity|]. split; [exact W|]. split; [exact N|]. split; [replace time with a5 by lia; exact D|lia].
Qed.
