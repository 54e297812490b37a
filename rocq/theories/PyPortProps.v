(** C80: Python code sees the channels of ports, their values at the current tag, and tags
    as they are. *)
From Verif Require Import Base Tag PyPort PyPortSpec PyPortProofs.
From Coq Require Import Lia.
Open Scope Z_scope.

(** A single port shows whether it is present and the value it was set to at this tag. *)
Theorem C80_single : forall l, exists q, convert (prun 1 l) (-2) = Some q /\ shows 0 l q.
Proof.
  intros l. pose proof (prun_length 1 l) as e. destruct (prun 1 l) as [|p ps] eqn:r; [discriminate|].
  exists (mkCap 0 (none_if_null (cp_value p)) (cp_present p) (-2) None). split; [reflexivity|].
  destruct (channel_shows 1 l 0 p) as [_ [_ h]]; [now rewrite r|]. split; [reflexivity|]. split; [reflexivity|]. exact h.
Qed.
Example C80_single_nonvacuous :
  convert (prun 1 [PSet 0 (VObj 1); PEndTag; PSet 0 (VObj 2); PSet 0 (VObj 3)]) (-2) = Some (mkCap 0 (VObj 3) true (-2) None).
Proof. reflexivity. Qed.

(** Of a multiport of width [w], each channel is found under its index; it is present if and
    only if it has been set at this tag, and then it has the value it was set to last. *)
Theorem C80_item_partial : forall w l c z, convert (prun w l) (Z.of_nat w) = Some c -> 0 <= z < Z.of_nat w -> z <= LLONG_MAX ->
  exists q, get_item (prun w l) c (KInt z) = Ok (Val q) /\ shows (Z.to_nat z) l q.
Proof.
  intros w l c z cv zr zl. unfold convert in cv. destruct (Z.eqb_spec (Z.of_nat w) (-2)); [lia|].
  injection cv as <-. unfold get_item; cbn [c_width].
  destruct (Z.eqb_spec (Z.of_nat w) (-2)); [lia|].
  assert (b : (LLONG_MIN <=? z) && (z <=? LLONG_MAX) = true).
  { apply andb_true_intro; split; apply Z.leb_le; unfold LLONG_MIN; lia. }
  rewrite b. cbn zeta. destruct (Z.eqb_spec z (-3)); [lia|]. destruct (Z.ltb_spec z 0); [lia|].
  destruct (nth_error_lt (prun w l) (Z.to_nat z)) as [p e]; [rewrite prun_length; lia|].
  rewrite e. eexists; split; [reflexivity|]. now apply channel_shows with w.
Qed.
Example C80_item_nonvacuous :
  get_item (prun 3 [PSet 0 (VObj 7); PEndTag; PSet 2 (VObj 8)]) (mkCap 0 VNone false 3 None) (KInt 2) = Ok (Val (mkCap 2 (VObj 8) true (-2) (Some 0))).
Proof. reflexivity. Qed.

(** Anything else than an integer raises an exception. *)
Theorem C80_item_type : forall ports c, c_width c <> -2 -> get_item ports c KOther = Ok (Raise TypeError).
Proof. intros ports c h. unfold get_item. destruct (Z.eqb_spec (c_width c) (-2)); [contradiction|reflexivity]. Qed.

(** An index out of range should raise an exception.  It doesn't: whatever the width, all
    such indices but one are used to access the array of channels. *)
Theorem C80_item_refuted : forall w l c z, convert (prun w l) (Z.of_nat w) = Some c -> (z < 0 \/ Z.of_nat w <= z) -> z <> -3 ->
  get_item (prun w l) c (KInt z) = UB.
Proof.
  intros w l c z cv zr z3. unfold convert in cv. destruct (Z.eqb_spec (Z.of_nat w) (-2)); [lia|].
  injection cv as <-. unfold get_item; cbn [c_width].
  destruct (Z.eqb_spec (Z.of_nat w) (-2)); [lia|]. cbn zeta.
  destruct ((LLONG_MIN <=? z) && (z <=? LLONG_MAX)); [|reflexivity].
  destruct (Z.eqb_spec z (-3)); [contradiction|]. destruct (Z.ltb_spec z 0); [reflexivity|].
  assert (e : nth_error (prun w l) (Z.to_nat z) = None) by (apply nth_error_None; rewrite prun_length; lia).
  now rewrite e.
Qed.

(** Setting a channel through an object for it is seen by every object for it obtained from
    then on, and by the object itself. *)
Theorem C80_set : forall w l c z q v, convert (prun w l) (Z.of_nat w) = Some c -> 0 <= z < Z.of_nat w -> z <= LLONG_MAX ->
  get_item (prun w l) c (KInt z) = Ok (Val q) ->
  exists q', port_set (prun w l) q v = Ok (prun w (l ++ [PSet (Z.to_nat z) v]), q') /\ shows (Z.to_nat z) (l ++ [PSet (Z.to_nat z) v]) q'.
Proof.
  intros w l c z q v cv zr zl e. destruct (C80_item_partial w l c z cv zr zl) as (q1 & e1 & s1 & s2 & _).
  rewrite e in e1. assert (q1 = q) by congruence. subst q1.
  unfold port_set. rewrite s1, s2, prun_length. cbn [Z.eqb].
  replace (Z.to_nat z <? w)%nat with true by (symmetry; apply Nat.ltb_lt; lia).
  rewrite prun_snoc. eexists; split; [reflexivity|].
  split; [reflexivity|]. split; [reflexivity|]. rewrite rev_app_distr. cbn. rewrite Nat.eqb_refl. now split.
Qed.
Example C80_set_nonvacuous :
  port_set (prun 2 []) (mkCap 1 VNone false (-2) (Some 0)) (VObj 5) = Ok (prun 2 [PSet 1 (VObj 5)], mkCap 1 (VObj 5) true (-2) (Some 0)).
Proof. reflexivity. Qed.

(** Setting a multiport as a whole is undefined behaviour instead of an exception. *)
Theorem C80_set_refuted : forall w l c v, convert (prun w l) (Z.of_nat w) = Some c -> port_set (prun w l) c v = UB.
Proof.
  intros w l c v cv. unfold convert in cv. destruct (Z.eqb_spec (Z.of_nat w) (-2)); [lia|].
  injection cv as <-. unfold port_set; cbn [c_width]. destruct (Z.eqb_spec (Z.of_nat w) (-2)); [lia|reflexivity].
Qed.

(** len() is the width of a multiport. *)
Theorem C80_len : forall w l c, convert (prun w l) (Z.of_nat w) = Some c -> len c = Val (Z.of_nat w).
Proof.
  intros w l c cv. unfold convert in cv. destruct (Z.eqb_spec (Z.of_nat w) (-2)); [lia|].
  injection cv as <-. unfold len; cbn [c_width]. destruct (Z.ltb_spec (Z.of_nat w) 0); [lia|reflexivity].
Qed.

(** A loop over a multiport that has channels visits each of them once, in order, whether or
    not a loop over the same object has been left early; and it ends.  The body must not
    iterate over the same object. *)
Theorem C80_loop_partial : forall w l c body n, (1 <= w)%nat -> c_width c = Z.of_nat w -> (forall c, body c = Some c) -> (w < n)%nat ->
  exists qs c', for_each n (prun w l) body c = Ok (Ended qs c') /\ length qs = w /\
    forall i q, nth_error qs i = Some q -> shows i l q.
Proof.
  intros w l c body n w1 cw B wn.
  destruct (for_each_all (prun w l) body c n B) as (qs & r & lq & h); try (rewrite prun_length; assumption).
  rewrite prun_length in lq. exists qs, (iter c). split; [exact r|]. split; [exact lq|].
  intros i q e. destruct (nth_error_lt (prun w l) i) as [p ep].
  { rewrite prun_length, <- lq. apply nth_error_Some. now rewrite e. }
  rewrite (h _ _ ep) in e. injection e as <-. now apply channel_shows with w.
Qed.
Example C80_loop_nonvacuous :
  for_each 3 (prun 2 [PSet 1 (VObj 5)]) Some (mkCap 0 VNone false 2 (Some 1)) =
  Ok (Ended [mkCap 0 VNone false (-2) (Some 0); mkCap 1 (VObj 5) true (-2) (Some 0)] (mkCap 0 VNone false 2 (Some 0))).
Proof. reflexivity. Qed.

(** A loop over a multiport without channels raises an exception instead of doing nothing. *)
Theorem C80_empty_refuted : forall l c body n, c_width c = 0 -> for_each (S n) (prun 0 l) body c = Ok (Raised TypeError).
Proof. intros l c body n w. unfold for_each. cbn [loop]. unfold iter_next. cbn [c_width iter]. now rewrite w. Qed.

(** A loop within a loop over the same port object never ends: the position is part of the
    object, and the end of the inner loop sets it back. *)
Theorem C80_nested_refuted : forall w l c n, (1 <= w)%nat -> c_width c = Z.of_nat w ->
  for_each n (prun w l) (inner_loop (prun w l)) c = Ok Running.
Proof.
  intros w l c n w1 cw. unfold for_each. apply nested_runs; [now rewrite prun_length|now rewrite prun_length|reflexivity].
Qed.

(** The value of an absent port should be None.  It is that of an earlier tag. *)
Theorem C80_absent_refuted : exists l q, convert (prun 1 l) (-2) = Some q /\ set_now 0 (rev l) = None /\ c_present q = false /\ c_value q <> VNone.
Proof.
  exists [PSet 0 (VObj 1); PEndTag], (mkCap 0 (VObj 1) false (-2) None).
  split; [reflexivity|]. split; [reflexivity|]. split; [reflexivity|]. discriminate.
Qed.

(** A Python tag has the time and microstep it was created with, or an exception is raised
    because the time is out of range, unless [unsigned long] is larger than the microstep
    and the machine is big-endian. *)
Theorem C80_tag_partial : forall long big time m, (long = 4 \/ long = 8 /\ big = false) -> 0 <= m < 2 ^ 32 ->
  tag_init long big time m = if in_int64b time then Val (mkTag time m) else Raise OverflowError.
Proof.
  intros long big time m h r. unfold tag_init, in_int64b.
  destruct ((LLONG_MIN <=? time) && (time <=? LLONG_MAX)); [|reflexivity].
  destruct h as [->|[-> ->]]; cbn [Z.eqb Z.mul Z.add Pos.mul Pos.eqb].
  - rewrite Z.mod_small; [reflexivity|exact r].
  - do 2 f_equal. rewrite (Z.mod_small m); [apply Z.mod_small; exact r|].
    split; [lia|]. apply Z.lt_trans with (2 ^ 32); [lia|]. reflexivity.
Qed.
Example C80_tag_nonvacuous : tag_init 8 false 5 4294967295 = Val (mkTag 5 4294967295).
Proof. reflexivity. Qed.

(** A microstep that does not fit is silently replaced by another one; on a big-endian
    machine with 64-bit [long] every microstep is replaced by 0. *)
Theorem C80_tag_refuted :
  (exists m, 2 ^ 32 <= m /\ tag_init 8 false 0 m = Val (mkTag 0 0)) /\
  (exists m, m < 0 /\ tag_init 8 false 0 m = Val (mkTag 0 4294967295)) /\
  (forall m, 0 <= m < 2 ^ 32 -> tag_init 8 true 0 m = Val (mkTag 0 0)).
Proof.
  split; [exists 4294967296; split; [discriminate|reflexivity]|].
  split; [exists (-1); split; [reflexivity|reflexivity]|].
  intros m r. unfold tag_init. cbn [Z.eqb Z.mul Pos.mul Pos.eqb].
  change ((LLONG_MIN <=? 0) && (0 <=? LLONG_MAX)) with true. cbv iota.
  rewrite Z.mod_small.
  - rewrite Z.div_small; [reflexivity|exact r].
  - split; [lia|]. apply Z.lt_trans with (2 ^ 32); [lia|]. reflexivity.
Qed.

(** Python's comparison operators and tag_compare() follow the order of tags. *)
Theorem C80_order : forall o a b, (richcompare o a b = true <-> holds o a b) /\
  (py_tag_compare a b = -1 <-> before a b) /\ (py_tag_compare a b = 0 <-> a = b) /\ (py_tag_compare a b = 1 <-> before b a).
Proof.
  assert (eqt : forall a b : tag, a = b <-> ttime a = ttime b /\ tmicro a = tmicro b).
  { intros [t m] [t' m']; cbn. split; [intros e; injection e; auto|intros [-> ->]; reflexivity]. }
  intros o a b. unfold py_tag_compare, before.
  assert (d : (tag_compare a b = -1 /\ (ttime a < ttime b \/ ttime a = ttime b /\ tmicro a < tmicro b)) \/
              (tag_compare a b = 0 /\ ttime a = ttime b /\ tmicro a = tmicro b) \/
              (tag_compare a b = 1 /\ (ttime b < ttime a \/ ttime b = ttime a /\ tmicro b < tmicro a))).
  { unfold tag_compare.
    repeat match goal with |- context [?x <? ?y] => destruct (Z.ltb_spec x y) end; lia. }
  split.
  - destruct o; unfold richcompare, holds, before; rewrite ?negb_true_iff, ?Z.ltb_lt, ?Z.leb_le, ?Z.eqb_eq, ?Z.eqb_neq;
      rewrite ?(eqt a b); lia.
  - rewrite (eqt a b). lia.
Qed.
Example C80_order_nonvacuous : richcompare LT (mkTag 1 5) (mkTag 2 0) = true /\ richcompare GE (mkTag 1 5) (mkTag 1 6) = false.
Proof. split; reflexivity. Qed.

(** The arguments given to Python's start() are passed on. *)
Theorem C80_args_partial : forall module l,
  main_argv module [AList (map Some l)] = Ok (Args (Z.of_nat (length l)) l) /\ main_argv module [] = Ok (Args 1 [module]).
Proof.
  intros module l. split; [|reflexivity]. unfold main_argv.
  assert (e : encode (map Some l) = Some l) by (induction l as [|a l IH]; cbn; [|rewrite IH]; reflexivity).
  now rewrite e.
Qed.
(** With more than one argument an uninitialized count is used instead of the exception that
    has been set; an argument that is not a list counts as -1 arguments. *)
Theorem C80_args_refuted : (forall module a b l, main_argv module (a :: b :: l) = UB) /\
  (forall module, main_argv module [ANotList] = Ok (Args (-1) [])).
Proof. split; [intros m [x|] b l|]; reflexivity. Qed.

(** A reaction is found if and only if there is a callable attribute of that name. *)
Theorem C80_function : forall m class i f,
  get_function (Some m) class i f = Function <->
  exists l o, m class = Some l /\ nth_error l i = Some o /\ o f = Some true.
Proof.
  intros m class i f. unfold get_function. split.
  - destruct (m class) as [l|]; [|discriminate]. destruct (nth_error l i) as [o|] eqn:e; [|discriminate].
    destruct (o f) as [[]|] eqn:ef; try discriminate. intros _. eauto.
  - intros (l & o & -> & -> & ->). reflexivity.
Qed.
Example C80_function_nonvacuous : get_function (Some (fun c => if (c =? 1)%nat then Some [fun f => Some (f =? 2)%nat] else None)) 1 0 2 = Function.
Proof. reflexivity. Qed.
(** "The function or NULL on error": None is returned if there is no such attribute, if it
    is not callable, or if there is no module. *)
Theorem C80_function_refuted : (exists m class i f, get_function (Some m) class i f = PyNone) /\
  (forall class i f, get_function None class i f = PyNone).
Proof. split; [|reflexivity]. exists (fun _ => Some [fun _ => None]), 0%nat, 0%nat, 0%nat. reflexivity. Qed.

Print Assumptions C80_single.
Print Assumptions C80_item_partial.
Print Assumptions C80_item_type.
Print Assumptions C80_item_refuted.
Print Assumptions C80_set.
Print Assumptions C80_set_refuted.
Print Assumptions C80_len.
Print Assumptions C80_loop_partial.
Print Assumptions C80_empty_refuted.
Print Assumptions C80_nested_refuted.
Print Assumptions C80_absent_refuted.
Print Assumptions C80_tag_partial.
Print Assumptions C80_tag_refuted.
Print Assumptions C80_order.
Print Assumptions C80_args_partial.
Print Assumptions C80_args_refuted.
Print Assumptions C80_function.
Print Assumptions C80_function_refuted.
