(** Proofs about critical sections and atomic operations. *)
From Verif Require Import Base CriticalSection CriticalSectionSpec.

(** The core when [n] sections are open and interrupts were [i0] before the first. *)
Definition inside (p : platform) (i0 : bool) (n : nat) (c : core) : Prop :=
  nested c = Z.of_nat n /\ in_isr c = false /\
  irq c = (match n with O => i0 | _ => false end) /\
  match p with
  | Patmos | Flexpret => i0 = true
  | Zephyr | Rp2040 => n <> O -> saved c = i0
  | _ => False
  end.

Lemma nat_small : forall n, Z.of_nat n <= INT_MAX -> Z.of_nat n mod two32 = Z.of_nat n.
Proof. intros n H. apply Z.mod_small. unfold INT_MAX, two32 in *. lia. Qed.

Lemma enter_inside : forall p i0 n c,
  inside p i0 n c -> Z.of_nat (S n) <= INT_MAX ->
  exists c', disable p c = Ok (c', Zero) /\ inside p i0 (S n) c'.
Proof.
  intros p i0 n [k i s b] [N [B [I P]]] L. cbn in N, B, I. subst k b i.
  assert (NM : (Z.of_nat n =? INT_MAX) = false) by (apply Z.eqb_neq; lia).
  assert (PL : Z.of_nat n + 1 = Z.of_nat (S n)) by lia.
  destruct p; try (destruct P; fail); cbn -[Z.of_nat Z.add Z.modulo two32 INT_MAX];
    unfold incr_int; rewrite ?NM; cbn -[Z.of_nat Z.add Z.modulo two32 INT_MAX].
  - (* Patmos *)
    rewrite PL. destruct n as [|n]; cbn -[Z.of_nat].
    + eexists; split; [reflexivity|]. subst i0. split; [reflexivity|split; [reflexivity|split; reflexivity]].
    + replace (Z.of_nat (S n) =? 0) with false by (symmetry; apply Z.eqb_neq; lia).
      eexists; split; [reflexivity|]. split; [reflexivity|split; [reflexivity|split; [reflexivity|exact P]]].
  - rewrite PL, nat_small by exact L. destruct n as [|n]; cbn -[Z.of_nat].
    + eexists; split; [reflexivity|]. split; [reflexivity|split; [reflexivity|split; [reflexivity|]]].
      intros _. reflexivity.
    + replace (Z.of_nat (S n) =? 0) with false by (symmetry; apply Z.eqb_neq; lia).
      eexists; split; [reflexivity|]. split; [reflexivity|split; [reflexivity|split; [reflexivity|]]].
      intros _. apply P. discriminate.
  - destruct n as [|n]; cbn -[Z.of_nat Z.modulo two32].
    + eexists; split; [reflexivity|]. split; [reflexivity|split; [reflexivity|split; [reflexivity|]]].
      intros _. reflexivity.
    + replace (Z.of_nat (S n) =? 0) with false by (symmetry; apply Z.eqb_neq; lia).
      cbn -[Z.of_nat Z.modulo two32 Z.add].
      eexists; split; [reflexivity|].
      split; [unfold set_nested; cbn -[Z.of_nat Z.modulo two32 Z.add]; rewrite PL; apply nat_small, L|].
      split; [reflexivity|split; [reflexivity|]].
      intros _. apply P. discriminate.
  - replace (Z.of_nat n <? 0) with false by (symmetry; apply Z.ltb_ge; lia).
    cbn -[Z.of_nat Z.add]. rewrite PL. destruct n as [|n]; cbn -[Z.of_nat].
    + eexists; split; [reflexivity|]. subst i0. split; [reflexivity|split; [reflexivity|split; reflexivity]].
    + replace (Z.of_nat (S n) =? 0) with false by (symmetry; apply Z.eqb_neq; lia).
      eexists; split; [reflexivity|]. split; [reflexivity|split; [reflexivity|split; [reflexivity|exact P]]].
Qed.

Lemma exit_inside : forall p i0 n c,
  inside p i0 (S n) c -> Z.of_nat (S n) <= INT_MAX ->
  exists c', enable p c = Ok (c', Zero) /\ inside p i0 n c'.
Proof.
  intros p i0 n [k i s b] [N [B [I P]]] L. cbn in B, I. cbn -[Z.of_nat] in N. subst k b i.
  assert (NM : (Z.of_nat (S n) =? INT_MIN) = false) by (apply Z.eqb_neq; unfold INT_MIN; lia).
  assert (LE : (Z.of_nat (S n) <=? 0) = false) by (apply Z.leb_gt; lia).
  assert (PL : Z.of_nat (S n) - 1 = Z.of_nat n) by lia.
  destruct p; try (destruct P; fail); cbn -[Z.of_nat Z.sub Z.modulo two32 INT_MIN];
    unfold decr_int; rewrite ?LE, ?NM; cbn -[Z.of_nat Z.sub Z.modulo two32 INT_MIN]; rewrite ?PL.
  - destruct n as [|n]; cbn -[Z.of_nat].
    + eexists; split; [reflexivity|]. subst i0. split; [reflexivity|split; [reflexivity|split; reflexivity]].
    + replace (Z.of_nat (S n) =? 0) with false by (symmetry; apply Z.eqb_neq; lia).
      eexists; split; [reflexivity|]. split; [reflexivity|split; [reflexivity|split; [reflexivity|exact P]]].
  - rewrite nat_small by lia. cbn in P. specialize (P ltac:(discriminate)). subst s.
    destruct n as [|n]; cbn -[Z.of_nat].
    + eexists; split; [reflexivity|]. split; [reflexivity|split; [reflexivity|split; [reflexivity|]]].
      intros X. destruct X; reflexivity.
    + replace (Z.of_nat (S n) =? 0) with false by (symmetry; apply Z.eqb_neq; lia).
      eexists; split; [reflexivity|]. split; [reflexivity|split; [reflexivity|split; [reflexivity|]]].
      intros _. reflexivity.
  - rewrite nat_small by lia. cbn in P. specialize (P ltac:(discriminate)). subst s.
    destruct n as [|n]; cbn -[Z.of_nat].
    + eexists; split; [reflexivity|]. split; [reflexivity|split; [reflexivity|split; [reflexivity|]]].
      intros X. destruct X; reflexivity.
    + replace (Z.of_nat (S n) =? 0) with false by (symmetry; apply Z.eqb_neq; lia).
      eexists; split; [reflexivity|]. split; [reflexivity|split; [reflexivity|split; [reflexivity|]]].
      intros _. reflexivity.
  - replace (Z.of_nat n <? 0) with false by (symmetry; apply Z.ltb_ge; lia).
    destruct n as [|n]; cbn -[Z.of_nat].
    + eexists; split; [reflexivity|]. subst i0. split; [reflexivity|split; [reflexivity|split; reflexivity]].
    + replace (Z.of_nat (S n) =? 0) with false by (symmetry; apply Z.eqb_neq; lia).
      eexists; split; [reflexivity|]. split; [reflexivity|split; [reflexivity|split; [reflexivity|exact P]]].
Qed.

Lemma deepest_ge : forall l n, (n <= deepest n l)%nat.
Proof. intros [|[|] l] n; cbn; lia. Qed.

Lemma run_inside : forall p i0 l n m c,
  inside p i0 n c -> depth n l = Some m -> Z.of_nat (deepest n l) <= INT_MAX ->
  exists c' rets, run p c l = Ok (c', rets) /\ Forall (eq Zero) rets /\ inside p i0 m c'.
Proof.
  intros p i0. induction l as [|o l IH]; intros n m c I D L.
  - cbn in D. injection D as D. subst m. exists c, []. split; [reflexivity|split; [constructor|exact I]].
  - destruct o; cbn [depth deepest] in D, L.
    + pose proof (deepest_ge l (S n)) as G.
      destruct (enter_inside p i0 n c I ltac:(lia)) as [c1 [E I1]].
      destruct (IH (S n) m c1 I1 D ltac:(lia)) as [c' [rets [R [F I']]]].
      exists c', (Zero :: rets). cbn [run call]. rewrite E. cbn [bind fst snd]. rewrite R.
      split; [reflexivity|split; [constructor; [reflexivity|exact F]|exact I']].
    + destruct n as [|n]; [discriminate|]. cbn [pred] in L.
      destruct (exit_inside p i0 n c I ltac:(lia)) as [c1 [E I1]].
      destruct (IH n m c1 I1 D ltac:(lia)) as [c' [rets [R [F I']]]].
      exists c', (Zero :: rets). cbn [run call]. rewrite E. cbn [bind fst snd]. rewrite R.
      split; [reflexivity|split; [constructor; [reflexivity|exact F]|exact I']].
Qed.

(** ** Atomic operations *)

Lemma fire_all : forall l c,
  fold_left (fun c f => fire f c) l c = mkCell (serve l (mem c)) (loc c) (tmp c).
Proof.
  induction l as [|f l IH]; intros c; cbn [fold_left].
  - destruct c; reflexivity.
  - rewrite IH. reflexivity.
Qed.

Lemma serve_app : forall a b m, serve (a ++ b) m = serve b (serve a m).
Proof. intros. unfold serve. apply fold_left_app. Qed.

Lemma body_masked : forall l m,
  irq (cpu m) = false ->
  body m l = mkMachine (cpu m) (fold_left (fun c s => s c) (map snd l) (data m))
               (waiting m ++ concat (map fst l)).
Proof.
  induction l as [|[fs s] l IH]; intros m I; cbn [body map fold_left concat fst snd].
  - rewrite app_nil_r. destruct m; reflexivity.
  - unfold raise_irqs. rewrite I. cbn [cpu data waiting]. rewrite IH by exact I.
    cbn [cpu data waiting]. rewrite app_assoc. reflexivity.
Qed.

(** On every platform but Arduino a section that is not nested masks the interrupts, and
    closing it enables them. *)
Lemma outermost : forall p c,
  p <> Arduino -> nested c = 0 -> irq c = true -> in_isr c = false ->
  exists c1 c2, disable p c = Ok (c1, Zero) /\ irq c1 = false /\
                enable p c1 = Ok (c2, Zero) /\ nested c2 = 0 /\ irq c2 = true /\ in_isr c2 = false.
Proof.
  intros p [k i s b] NA N I B. cbn in N, I, B. subst.
  destruct p; try (exfalso; apply NA; reflexivity); cbn;
    eexists; eexists; (split; [reflexivity|]); repeat split.
Qed.

Lemma raise_on : forall m fs,
  irq (cpu m) = true ->
  raise_irqs m fs =
  mkMachine (cpu m) (mkCell (serve (waiting m ++ fs) (mem (data m))) (loc (data m)) (tmp (data m))) [].
Proof. intros m fs I. unfold raise_irqs. rewrite I, fire_all. reflexivity. Qed.

Lemma raise_off : forall m fs,
  irq (cpu m) = false -> raise_irqs m fs = mkMachine (cpu m) (data m) (waiting m ++ fs).
Proof. intros m fs I. unfold raise_irqs. rewrite I. reflexivity. Qed.
