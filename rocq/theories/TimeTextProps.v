(** Human-readable times (C06). *)
From Verif Require Import Base TimeText TimeTextSpec TimeTextProofs.
From Coq Require Import Ascii String.
Open Scope Z_scope.

Definition no_buf : cbuf := mkBuf (fun _ => "?"%char) 0.

(** ** C06.  Into any buffer, for every non-negative 64-bit number: the text is the number in groups of three, the
    result is its length, and it fits (with the terminating NUL) into 27 characters. *)
Theorem C06_comma : forall m time, 0 <= time <= LLONG_MAX -> exists b n, comma_separated (mkBuf m 0) 0 time = Ok (b, n) /\
  grouped (text_from (b_mem b) 0 64) time /\ n = List.length (text_from (b_mem b) 0 64) /\ (b_hi b <= 64)%nat.
Proof.
  intros m time H. destruct (comma_ok (mkBuf m 0) 0 time H) as (b & l & E & (W1 & _ & W3) & N & G). cbn [Nat.add b_hi] in *.
  assert (L : (List.length l <= 27)%nat).
  { clear - G H. assert (K : forall k l v, grouped l v -> v < 1000 ^ Z.of_nat (S k) -> (List.length l <= 3 + 4 * k)%nat).
    { induction k as [|k IH]; intros l0 v G0 Hv; [apply (grouped_len _ _ G0); lia|]. destruct G0 as [a Ha|a b Ha Hb|a b c Ha Hb Hc|l0 v a b c G0 Hv0 Ha Hb Hc]; cbn [List.length]; try lia.
      rewrite app_length. cbn [List.length]. specialize (IH l0 v G0). assert (v < 1000 ^ Z.of_nat (S k)); [|specialize (IH H0); lia].
      replace (Z.of_nat (S (S k))) with (Z.of_nat (S k) + 1) in Hv by lia. rewrite Z.pow_add_r in Hv by lia. change (1000 ^ 1) with 1000 in Hv. lia. }
    apply (K 6%nat l time G). change (1000 ^ Z.of_nat 7) with 1000000000000000000000. unfold LLONG_MAX in H. lia. }
  assert (T : text_from (b_mem b) 0 64 = l) by (apply text_wrote; [exact W1|exact N|exact (grouped_not_nul _ _ G)|lia]).
  exists b, (List.length l). rewrite T. split; [exact E|]. split; [exact G|]. split; [reflexivity|lia].
Qed.
Print Assumptions C06_comma.
(** For every positive 64-bit time the text is a list of positive numbers with units whose sum is the time; it fits into
    64 characters and the result is its length. *)
Theorem C06_readable : forall m time, 0 < time <= LLONG_MAX -> exists b n, readable (mkBuf m 0) time = Ok (b, n) /\
  durations (text_from (b_mem b) 0 64) time /\ n = List.length (text_from (b_mem b) 0 64) /\ (b_hi b <= 64)%nat.
Proof.
  intros m time H. destruct (readable_ok (mkBuf m 0) time H) as (b & l & E & (W1 & _ & W3) & N & D & L). cbn [Nat.add b_hi] in *.
  assert (T : text_from (b_mem b) 0 64 = l) by (apply text_wrote; [exact W1|exact N|exact (durations_not_nul _ _ D)|lia]).
  exists b, (List.length l). rewrite T. split; [exact E|]. split; [exact D|]. split; [reflexivity|lia].
Qed.
Print Assumptions C06_readable.
Definition shown (r : res (cbuf * nat)) : option (string * nat * nat) := match r with Ok (b, n) => Some (string_of_list_ascii (text_from (b_mem b) 0 64), n, b_hi b) | UB => None end.
Example C06_ex : shown (readable no_buf LLONG_MAX) = Some ("15,250 weeks, 1 d, 23 h, 47 min, 16 s, 854,775,807 ns"%string, 53%nat, 54%nat) /\
  shown (readable no_buf (WEEKS + SECONDS)) = Some ("1 weeks, 1,000 ms"%string, 17%nat, 18%nat) /\ shown (comma_separated no_buf 0 1002003) = Some ("1,002,003"%string, 9%nat, 10%nat).
Proof. vm_compute. auto. Qed.

(** Not for all 64-bit times: a negative number makes [lf_comma_separated_time] read before its array, and
    [lf_readable_time] prints "0" for it. *)
Theorem C06_negative_refuted : forall b p time, time < 0 -> comma_separated b p time = UB.
Proof.
  intros b p time H. unfold comma_separated. replace (time =? 0) with false by lia. replace (time <? 0) with true by lia. cbn [clauses]. replace (time <=? 0) with true by lia. reflexivity.
Qed.
Print Assumptions C06_negative_refuted.
Theorem C06_readable_negative_refuted : forall m time, time < 0 -> exists b n, readable (mkBuf m 0) time = Ok (b, n) /\ text_from (b_mem b) 0 64 = ["0"%char].
Proof.
  intros m time H. unfold readable. replace (time <=? 0) with true by lia. eexists _, _. split; [reflexivity|]. reflexivity.
Qed.
Print Assumptions C06_readable_negative_refuted.
