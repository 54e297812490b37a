(** Command-line arguments: property C58. *)
From Verif Require Import Base CText Args ArgsSpec.
From Coq Require Import String.
Open Scope Z_scope.

(** ** The number. *)
Lemma digits_writes ds : forall acc, Forall (fun d => 0 <= d <= 9) ds ->
  digits acc (map (fun d => d + 48) ds) = acc * 10 ^ Z.of_nat (List.length ds) + decimal ds.
Proof.
  induction ds as [|d ds IH]; intros acc F; cbn [map digits decimal List.length]; [cbn; lia|].
  inversion F as [|? ? Hd F']; subst. replace (is_digit (d + 48)) with true by (unfold is_digit; lia).
  rewrite IH by assumption. rewrite Nat2Z.inj_succ, Z.pow_succ_r by lia. replace (d + 48 - 48) with d by lia. ring.
Qed.
Lemma number_digit c r : 48 <= c <= 57 -> number (c :: r) = digits 0 (c :: r).
Proof.
  intros H. unfold number. cbn [skip_space]. replace (is_space c) with false by (unfold is_space; lia).
  assert (D : exists k, c = 48 + Z.of_nat k /\ (k < 10)%nat) by (exists (Z.to_nat (c - 48)); lia).
  destruct D as (k & -> & K). do 10 (destruct k as [|k]; [reflexivity|]). lia.
Qed.
Lemma number_writes n s : writes n s -> number s = n.
Proof.
  intros (ds & Hne & F & -> & ->). destruct ds as [|d ds]; [congruence|].
  cbn [map]. inversion F; subst. rewrite number_digit by lia.
  change (d + 48 :: map (fun d => d + 48) ds) with (map (fun d => d + 48) (d :: ds)). rewrite digits_writes by assumption. lia.
Qed.
Lemma decimal_bound ds : Forall (fun d => 0 <= d <= 9) ds -> 0 <= decimal ds < 10 ^ Z.of_nat (List.length ds).
Proof.
  induction 1 as [|d ds Hd _ IH]; cbn [decimal List.length]; [cbn; lia|].
  rewrite Nat2Z.inj_succ, Z.pow_succ_r by lia.
  assert (0 <= d * 10 ^ Z.of_nat (List.length ds) <= 9 * 10 ^ Z.of_nat (List.length ds)) by (split; [apply Z.mul_nonneg_nonneg; lia|apply Z.mul_le_mono_nonneg_r; lia]).
  lia.
Qed.
Lemma writes_nonneg n s : writes n s -> 0 <= n.
Proof. intros (ds & _ & F & _ & ->). apply decimal_bound; assumption. Qed.
Lemma writes_zero s : writes 0 s -> strn_eqb 1 s (lit "0") = true.
Proof.
  intros (ds & Hne & F & -> & E). destruct ds as [|d ds]; [congruence|]. inversion F as [|? ? Hd F']; subst.
  pose proof (decimal_bound ds F'). cbn [decimal] in E.
  assert (0 <= d * 10 ^ Z.of_nat (List.length ds)) by (apply Z.mul_nonneg_nonneg; lia).
  assert (d * 10 ^ Z.of_nat (List.length ds) = 0) as M by lia. apply Z.mul_eq_0 in M. destruct M as [->|M]; [reflexivity|].
  assert (0 < 10 ^ Z.of_nat (List.length ds)) by (apply Z.pow_pos_nonneg; lia). lia.
Qed.

(** ** The units. *)
Lemma unit_factor_spec u n d : nanoseconds n u = Some d -> exists f, unit_factor (lit u) = Some f /\ d = n * f /\ 1 <= f.
Proof.
  unfold nanoseconds.
  repeat match goal with |- context [String.eqb u ?x] => destruct (String.eqb_spec u x) as [->|]; [intros [= <-]; eexists; split; [reflexivity|]; lia|] end.
  discriminate.
Qed.

Lemma timeout_exact n s u d : writes n s -> nanoseconds n u = Some d -> in_int64 d ->
  timeout_option s (lit u) = Ok (Some d).
Proof.
  intros W U I. destruct (unit_factor_spec u n d U) as (f & F & -> & Hf). pose proof (writes_nonneg _ _ W) as Nn.
  unfold timeout_option, atoll. rewrite (number_writes n s W).
  assert (in_int64b n = true) as -> by (unfold in_int64, in_int64b, LLONG_MIN, LLONG_MAX in *; nia).
  cbn [bind]. destruct (Z.eqb_spec n 0) as [->|Hn].
  - rewrite (writes_zero s W). cbn [negb andb]. rewrite F. reflexivity.
  - cbn [andb]. rewrite F. unfold c_mul64. replace (in_int64b (n * f)) with true; [reflexivity|]. symmetry. unfold in_int64, in_int64b in *. lia.
Qed.

(** ** The loop, on the list of the remaining arguments. *)
Fixpoint process_list (fuel : nat) (l : list text) (s : settings) : res (bool * settings) :=
  match fuel with
  | O => match l with [] => Ok (true, s) | _ => UB end
  | S fuel =>
  match l with
  | [] => Ok (true, s)
  | a :: l =>
    if is_opt a ["-f"; "--fast"]%string then
      match l with
      | [] => Ok (false, s)
      | v :: l => process_list fuel l (if str_eqb v (lit "true") then mkSettings true (duration s) (keepalive s) (workers s)
                   else if str_eqb v (lit "false") then mkSettings false (duration s) (keepalive s) (workers s)
                   else s)
      end
    else if is_opt a ["-o"; "--timeout"; "-timeout"]%string then
      match l with
      | t :: u :: l =>
        match timeout_option t u with
        | UB => UB
        | Ok None => Ok (false, s)
        | Ok (Some d) => process_list fuel l (mkSettings (fast s) d (keepalive s) (workers s))
        end
      | _ => Ok (false, s)
      end
    else if is_opt a ["-k"; "--keepalive"]%string then
      match l with
      | [] => Ok (false, s)
      | v :: l => process_list fuel l (if str_eqb v (lit "true") then mkSettings (fast s) (duration s) true (workers s)
                   else if str_eqb v (lit "false") then mkSettings (fast s) (duration s) false (workers s)
                   else s)
      end
    else if is_opt a ["-w"; "--workers"]%string then
      match l with
      | [] => Ok (false, s)
      | v :: l => match atoi v with
                  | UB => UB
                  | Ok n => process_list fuel l (mkSettings (fast s) (duration s) (keepalive s) (if n <=? 0 then 1 else n))
                  end
      end
    else if is_opt a ["--ros-args"]%string then process_list fuel l s
    else Ok (false, s)
  end
  end.

Lemma skipn_step {A} (l : list A) i : (i < List.length l)%nat -> exists x, nth_error l i = Some x /\ skipn i l = x :: skipn (S i) l.
Proof.
  revert i. induction l as [|y l IH]; intros i H; cbn in H; [lia|]. destruct i as [|i]; [exists y; auto|].
  destruct (IH i ltac:(lia)) as (x & A1 & A2). exists x. split; [exact A1|]. cbn [skipn] in *. exact A2.
Qed.

Lemma process_from_list fuel : forall argv i s, process_from fuel argv i s = process_list fuel (skipn i argv) s.
Proof.
  induction fuel as [|fuel IH]; intros argv i s; cbn [process_from process_list].
  - destruct (Nat.ltb_spec i (List.length argv)) as [L|L].
    + destruct (skipn_step argv i L) as (x & _ & ->). reflexivity.
    + rewrite skipn_all2 by lia. reflexivity.
  - destruct (Nat.ltb_spec i (List.length argv)) as [L|L]; [|rewrite skipn_all2 by lia; reflexivity].
    destruct (skipn_step argv i L) as (a & A1 & ->). unfold arg at 1. rewrite A1. cbn [bind].
    assert (One : (List.length argv <? S i + 1)%nat = true /\ skipn (S i) argv = [] \/
       (List.length argv <? S i + 1)%nat = false /\ exists v, arg argv (S i) = Ok v /\ skipn (S i) argv = v :: skipn (S (S i)) argv).
    { destruct (Nat.ltb_spec (List.length argv) (S i + 1)) as [M|M]; [left|right]; split; try reflexivity; [apply skipn_all2; lia|].
      destruct (skipn_step argv (S i) ltac:(lia)) as (v & V1 & V2). exists v. unfold arg. rewrite V1. auto. }
    destruct (is_opt a ["-f"; "--fast"]%string).
    { destruct One as [[-> ->]|[-> (v & V1 & V2)]]; [reflexivity|]. rewrite V1, V2. cbn [bind]. apply IH. }
    destruct (is_opt a ["-o"; "--timeout"; "-timeout"]%string).
    { destruct (Nat.ltb_spec (List.length argv) (S i + 2)) as [M|M].
      - destruct One as [[_ ->]|[_ (v & V1 & ->)]]; [reflexivity|]. rewrite (skipn_all2 argv (n := S (S i))) by lia. reflexivity.
      - destruct One as [[C _]|[_ (v & V1 & ->)]]; [apply Nat.ltb_lt in C; lia|]. rewrite V1. cbn [bind].
        destruct (skipn_step argv (S (S i)) ltac:(lia)) as (w & W1 & ->). unfold arg. rewrite W1. cbn [bind].
        destruct (timeout_option v w) as [[d|]|]; cbn [bind]; try reflexivity. apply IH. }
    destruct (is_opt a ["-k"; "--keepalive"]%string).
    { destruct One as [[-> ->]|[-> (v & V1 & V2)]]; [reflexivity|]. rewrite V1, V2. cbn [bind]. apply IH. }
    destruct (is_opt a ["-w"; "--workers"]%string).
    { destruct One as [[-> ->]|[-> (v & V1 & V2)]]; [reflexivity|]. rewrite V1, V2. cbn [bind].
      destruct (atoi v); cbn [bind]; [|reflexivity]. apply IH. }
    destruct (is_opt a ["--ros-args"]%string); [apply IH|reflexivity].
Qed.

Lemma process_list_fuel fuel : forall fuel' l s, (List.length l <= fuel)%nat -> (List.length l <= fuel')%nat ->
  process_list fuel l s = process_list fuel' l s.
Proof.
  induction fuel as [|fuel IH]; intros fuel' l s H H'.
  - destruct l; [|cbn in H; lia]. destruct fuel'; reflexivity.
  - destruct fuel' as [|fuel']; [destruct l; [reflexivity|cbn in H'; lia]|]. cbn [process_list].
    destruct l as [|a l]; [reflexivity|]. cbn [List.length] in H, H'.
    repeat match goal with
    | |- context [is_opt ?a ?l] => destruct (is_opt a l)
    end; try (apply IH; lia); try reflexivity.
    all: destruct l as [|v l]; [reflexivity|]; cbn [List.length] in H, H'; try (apply IH; lia).
    all: try (destruct l as [|u l]; [reflexivity|]; cbn [List.length] in H, H'; destruct (timeout_option v u) as [[d|]|]; try reflexivity; apply IH; lia).
    all: destruct (atoi v); [apply IH; lia|reflexivity].
Qed.

Definition process (l : list text) (s : settings) := process_list (List.length l) l s.
Lemma process_args_list prog l s : process_args (prog :: l) s = process l s.
Proof. unfold process_args. rewrite process_from_list. cbn [skipn]. apply process_list_fuel; cbn; lia. Qed.

Lemma process_app fuel : forall a b s s', (List.length a <= fuel)%nat ->
  process_list fuel a s = Ok (true, s') -> process_list (fuel + List.length b) (a ++ b) s = process b s'.
Proof.
  induction fuel as [|fuel IH]; intros a b s s' H E.
  - destruct a; [|cbn in H; lia]. cbn in E. injection E as <-. reflexivity.
  - destruct a as [|x a]; cbn [app].
    + cbn in E. injection E as <-. apply process_list_fuel; lia.
    + cbn [process_list Nat.add List.length] in *.
      repeat match goal with
      | _ : context [is_opt ?q ?l] |- _ => destruct (is_opt q l)
      end; try discriminate; try (apply IH; [lia|exact E]).
      all: destruct a as [|v a]; [discriminate|]; cbn [List.length app] in *; try (apply IH; [lia|exact E]).
      all: try (destruct a as [|u a]; [discriminate|]; cbn [List.length app] in *; destruct (timeout_option v u) as [[d|]|]; try discriminate; apply IH; [lia|exact E]).
      all: destruct (atoi v); [|discriminate]; apply IH; [lia|exact E].
Qed.

Lemma process_timeout opt t u post s : In opt ["-o"; "--timeout"]%string ->
  process (lit opt :: t :: u :: post) s =
  match timeout_option t u with
  | UB => UB
  | Ok None => Ok (false, s)
  | Ok (Some d) => process post (mkSettings (fast s) d (keepalive s) (workers s))
  end.
Proof.
  intros Ho. unfold process.
  rewrite (process_list_fuel (List.length (lit opt :: t :: u :: post)) (S (List.length post + 2))) by (cbn [List.length]; lia).
  cbn [process_list].
  assert (is_opt (lit opt) ["-f"; "--fast"]%string = false /\ is_opt (lit opt) ["-o"; "--timeout"; "-timeout"]%string = true) as [-> ->]
    by (cbn in Ho; destruct Ho as [<-|[<-|[]]]; split; reflexivity).
  destruct (timeout_option t u) as [[d|]|]; try reflexivity. apply process_list_fuel; lia.
Qed.

(** C58: a time-out given as a decimal number and a unit of the documentation,
    anywhere on the command line, becomes exactly that many nanoseconds (if they
    fit), and the arguments after it are processed as if it were not there. *)
Theorem C58_exact prog pre opt t u post n d s s1 :
  process_args (prog :: pre) s = Ok (true, s1) ->
  In opt ["-o"; "--timeout"]%string -> writes n t -> nanoseconds n u = Some d -> in_int64 d ->
  process_args (prog :: pre ++ lit opt :: t :: lit u :: post) s =
  process_args (prog :: post) (mkSettings (fast s1) d (keepalive s1) (workers s1)).
Proof.
  intros Hp Ho W U I. rewrite !process_args_list in *. unfold process at 1.
  rewrite app_length, (process_app _ pre _ s s1 (le_n _) Hp).
  rewrite process_timeout by assumption. rewrite (timeout_exact n t u d W U I). reflexivity.
Qed.

(** C58: so does a number with a sign: a minus sign gives the negative duration, a
    plus sign nothing (zero is to be written without a sign, see the findings). *)
Theorem C58_signed prog pre opt t u post n d s s1 :
  process_args (prog :: pre) s = Ok (true, s1) ->
  In opt ["-o"; "--timeout"]%string -> writes n t -> 0 < n -> nanoseconds n u = Some d -> in_int64 d ->
  process_args (prog :: pre ++ lit opt :: (45 :: t) :: lit u :: post) s =
  process_args (prog :: post) (mkSettings (fast s1) (- d) (keepalive s1) (workers s1)) /\
  process_args (prog :: pre ++ lit opt :: (43 :: t) :: lit u :: post) s =
  process_args (prog :: post) (mkSettings (fast s1) d (keepalive s1) (workers s1)).
Proof.
  intros Hp Ho W Hn U I. rewrite !process_args_list in *. unfold process at 1 3.
  rewrite !app_length, !(process_app _ pre _ s s1 (le_n _) Hp). rewrite !process_timeout by assumption.
  destruct (unit_factor_spec u n d U) as (f & F & -> & Hf).
  assert (D : digits 0 t = n).
  { destruct W as (ds & _ & Fd & -> & ->). rewrite digits_writes by assumption. lia. }
  unfold timeout_option, atoll.
  change (number (45 :: t)) with (- digits 0 t). change (number (43 :: t)) with (digits 0 t). rewrite D.
  assert (B : in_int64b n = true /\ in_int64b (- n) = true /\ in_int64b (n * f) = true /\ in_int64b (- n * f) = true) by (unfold in_int64, in_int64b, LLONG_MIN, LLONG_MAX in *; nia).
  destruct B as (-> & -> & B3 & B4). cbn [bind]. replace (n =? 0) with false by lia. replace (- n =? 0) with false by lia.
  cbn [andb]. rewrite F. unfold c_mul64. rewrite ?B3, ?B4. cbn [bind]. rewrite Z.mul_opp_l. split; reflexivity.
Qed.
Example C58_signed_ex : writes 5 (lit "5") /\ nanoseconds 5 "msec" = Some 5000000 /\
  process_args [lit "prog"; lit "-o"; lit "-5"; lit "msec"] settings0 = Ok (true, mkSettings false (-5000000) false 0).
Proof. split; [exists [5]; repeat split; [discriminate|repeat constructor; lia]|]. split; vm_compute; reflexivity. Qed.

(** C58: units that do not begin with one of the eight unit names are rejected. *)
Theorem C58_rejected prog pre opt t u post s s1 :
  process_args (prog :: pre) s = Ok (true, s1) ->
  In opt ["-o"; "--timeout"]%string -> in_int64 (number t) ->
  (forall p rest, In p ["sec"; "msec"; "usec"; "nsec"; "min"; "hour"; "day"; "week"]%string -> u <> lit p ++ rest) ->
  exists s', process_args (prog :: pre ++ lit opt :: t :: u :: post) s = Ok (false, s').
Proof.
  intros Hp Ho I Hu. exists s1. rewrite !process_args_list in *. unfold process at 1.
  rewrite app_length, (process_app _ pre _ s s1 (le_n _) Hp). rewrite process_timeout by assumption.
  assert (P : forall p a, strn_eqb (List.length p) a p = true -> exists r, a = p ++ r).
  { induction p as [|y p IH]; intros a E; [exists a; reflexivity|]. cbn [List.length strn_eqb] in E. destruct a as [|x a]; [discriminate|].
    apply andb_prop in E. destruct E as [E1 E2]. apply Z.eqb_eq in E1. destruct (IH a E2) as (r & ->). exists r. cbn. congruence. }
  assert (N : unit_factor u = None).
  { unfold unit_factor. repeat match goal with
    | |- context [strn_eqb ?k u (lit ?p)] =>
      let K := fresh in destruct (strn_eqb k u (lit p)) eqn:K;
      [exfalso; destruct (P (lit p) u K) as (r & R); exact (Hu p r ltac:(cbn; auto 10) R)|]
    end. reflexivity. }
  unfold timeout_option, atoll. replace (in_int64b (number t)) with true by (unfold in_int64, in_int64b in *; lia). cbn [bind].
  rewrite N. destruct (_ && _); reflexivity.
Qed.

(** C58: the arguments are never read past their end, whatever they are: the
    processing fails only if a number is too large. *)
Theorem C58_defined argv s :
  (forall a, In a argv -> - 15250 <= number a <= 15250) -> process_args argv s <> UB.
Proof.
  assert (G : forall fuel l s, (List.length l <= fuel)%nat -> (forall a, In a l -> - 15250 <= number a <= 15250) -> process_list fuel l s <> UB).
  { induction fuel as [|fuel IH]; intros l s0 H F.
    - destruct l; [cbn; discriminate|cbn in H; lia].
    - cbn [process_list]. destruct l as [|a l]; [discriminate|]. cbn [List.length] in H.
      repeat match goal with |- context [is_opt ?a ?l] => destruct (is_opt a l) end; try discriminate; try (apply IH; [lia|]; intros b Hb; apply F; right; exact Hb).
      all: destruct l as [|v l]; [discriminate|]; cbn [List.length] in H; try (apply IH; [lia|]; intros b Hb; apply F; do 2 right; exact Hb).
      + destruct l as [|u l]; [discriminate|]. cbn [List.length] in H. pose proof (F v ltac:(right; left; reflexivity)) as B.
        assert (T : timeout_option v u <> UB).
        { unfold timeout_option, atoll. replace (in_int64b (number v)) with true by (unfold in_int64b, LLONG_MIN, LLONG_MAX; lia). cbn [bind].
          destruct (_ && _); [discriminate|]. destruct (unit_factor u) as [f|] eqn:Uf; [|discriminate].
          assert (0 <= f <= 604800000000000). { unfold unit_factor in Uf. repeat match type of Uf with (if ?b then _ else _) = _ => destruct b; [injection Uf as <-; lia|] end. discriminate. }
          unfold c_mul64. assert (in_int64b (number v * f) = true) as ->; [|discriminate]. unfold in_int64b, LLONG_MIN, LLONG_MAX. nia. }
        destruct (timeout_option v u) as [[d|]|]; [|discriminate|congruence]. apply IH; [lia|]. intros b Hb. apply F. do 3 right. exact Hb.
      + pose proof (F v ltac:(right; left; reflexivity)) as B. unfold atoi. replace (in_int32b (number v)) with true by (unfold in_int32b; lia).
        apply IH; [lia|]. intros b Hb. apply F. do 2 right. exact Hb. }
  intros F. destruct argv as [|p l]; [unfold process_args; cbn; discriminate|]. rewrite process_args_list. apply G; [lia|]. intros a Ha. apply F. right. exact Ha.
Qed.

(** C58: a number of workers given on the command line is at least one. *)
Theorem C58_workers argv s s' ok : workers s = 0 \/ 1 <= workers s -> process_args argv s = Ok (ok, s') ->
  workers s' = workers s \/ 1 <= workers s'.
Proof.
  assert (G : forall fuel l s s' ok, process_list fuel l s = Ok (ok, s') -> workers s' = workers s \/ 1 <= workers s').
  { induction fuel as [|fuel IH]; intros l s0 s0' ok0 E.
    - destruct l; [injection E as <- <-; auto|discriminate].
    - cbn [process_list] in E. destruct l as [|a l]; [injection E as <- <-; auto|].
      repeat match type of E with context [is_opt ?a ?l] => destruct (is_opt a l) end; try (injection E as <- <-; now auto); try (now apply IH in E).
      all: destruct l as [|v l]; [injection E as <- <-; now auto|].
      + apply IH in E. destruct E as [E|E]; [|now auto]. left. rewrite E. destruct (str_eqb v _); [reflexivity|]. destruct (str_eqb v _); reflexivity.
      + destruct l as [|u l]; [injection E as <- <-; now auto|]. destruct (timeout_option v u) as [[d|]|]; try discriminate; [|injection E as <- <-; now auto].
        apply IH in E. exact E.
      + apply IH in E. destruct E as [E|E]; [|now auto]. left. rewrite E. destruct (str_eqb v _); [reflexivity|]. destruct (str_eqb v _); reflexivity.
      + destruct (atoi v) as [n|]; [|discriminate]. apply IH in E. cbn [workers] in E. destruct (Z.leb_spec n 0); lia. }
  intros Hs E. destruct argv as [|p l]; [unfold process_args in E; cbn in E; injection E as <- <-; auto|].
  rewrite process_args_list in E. eapply G, E.
Qed.

Example C58_ex :
  writes 250 (lit "250") /\ nanoseconds 250 "msecs" = Some 250000000 /\ in_int64 250000000 /\
  process_args [lit "prog"; lit "-w"; lit "4"; lit "--timeout"; lit "250"; lit "msecs"; lit "-f"; lit "true"] settings0
    = Ok (true, mkSettings true 250000000 false 4).
Proof.
  split; [|split; [reflexivity|split; [unfold in_int64, LLONG_MIN, LLONG_MAX; lia|vm_compute; reflexivity]]].
  exists [2; 5; 0]. split; [discriminate|]. split; [repeat constructor; lia|]. split; reflexivity.
Qed.

(** Findings. Units that are not units are accepted if they begin with one. *)
Theorem C58_unknown_unit_refuted : exists u d,
  (forall n, nanoseconds n u = None) /\
  process_args [lit "prog"; lit "-o"; lit "5"; lit u] settings0 = Ok (true, mkSettings false d false 0).
Proof. exists "secret"%string. eexists. split; [reflexivity|vm_compute; reflexivity]. Qed.
(** So are numbers with something after them. *)
Theorem C58_trailing_refuted : exists t d,
  (forall n, ~ writes n t) /\
  process_args [lit "prog"; lit "-o"; t; lit "sec"] settings0 = Ok (true, mkSettings false d false 0).
Proof.
  exists (lit "5x"). eexists. split; [|vm_compute; reflexivity].
  intros n (ds & _ & F & E & _). cbn in E. destruct ds as [|a [|b [|]]]; try discriminate. cbn in E. injection E as _ E.
  inversion F as [|? ? _ F']; subst. inversion F'; subst. lia.
Qed.
(** A time-out of zero is rejected when it is written with a sign. *)
Theorem C58_signed_zero_refuted :
  process_args [lit "prog"; lit "-o"; lit "+0"; lit "sec"] settings0 = Ok (false, settings0) /\
  process_args [lit "prog"; lit "-o"; lit "+1"; lit "sec"] settings0 = Ok (true, mkSettings false 1000000000 false 0).
Proof. split; vm_compute; reflexivity. Qed.
(** A time-out of three hundred years is undefined behaviour. *)
Theorem C58_overflow_refuted : exists n t, writes n t /\
  process_args [lit "prog"; lit "-o"; t; lit "weeks"] settings0 = UB.
Proof.
  exists 15650, (lit "15650"). split; [|vm_compute; reflexivity].
  exists [1; 5; 6; 5; 0]. split; [discriminate|]. split; [repeat constructor; lia|]. split; reflexivity.
Qed.

Print Assumptions C58_exact.
Print Assumptions C58_rejected.
Print Assumptions C58_defined.
Print Assumptions C58_workers.
Print Assumptions C58_unknown_unit_refuted.
Print Assumptions C58_trailing_refuted.
Print Assumptions C58_signed_zero_refuted.
Print Assumptions C58_overflow_refuted.
Print Assumptions C58_signed.
