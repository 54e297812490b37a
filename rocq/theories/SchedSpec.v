(** What a scheduler for worker threads is supposed to do with reactions.

    A scheduler is observed through five kinds of events.  The automaton below
    accepts exactly the sequences of events in which
    - a running reaction triggers reactions of higher levels only;
    - a worker takes a reaction only if that reaction was triggered and has not
      been taken since (so every triggering leads to at most one execution), and
      only if it has the current level (so reactions that run at one time have
      the same level);
    - a level is left only when every reaction of this level that was triggered
      has been taken and its execution has ended (so every triggering leads to at
      least one execution, and a level starts after the lower ones have ended);
    - a tag is left only from the highest level.  *)
From Verif Require Import Base.
From Coq Require Import Permutation.

Definition reaction := nat.

Inductive event :=
| Trigger (w : nat) (r : reaction)     (* worker w, running a reaction, triggers r *)
| Take (w : nat) (r : reaction)        (* worker w starts r *)
| Done (w : nat)                       (* the reaction that w runs ends *)
| NextLevel
| NextTag (rs : list reaction).        (* the next tag starts with rs triggered *)

Record observed := mkObserved {
  pending : nat -> list reaction;      (* per level: triggered, not yet taken *)
  level : nat;
  busy : nat -> option reaction }.

Definition set_nat {A} (f : nat -> A) (k : nat) (a : A) : nat -> A := fun i => if Nat.eqb i k then a else f i.

Fixpoint remove_one (r : reaction) (l : list reaction) : option (list reaction) :=
  match l with
  | [] => None
  | x :: l => if Nat.eqb x r then Some l else match remove_one r l with Some l => Some (x :: l) | None => None end
  end.
Definition is_none {A} (o : option A) : bool := match o with None => true | Some _ => false end.
Definition is_nil {A} (l : list A) : bool := match l with [] => true | _ => false end.

(** Triggering a reaction that is pending has no effect. *)
Definition add (lvl : reaction -> nat) (p : nat -> list reaction) (r : reaction) : nat -> list reaction :=
  if existsb (Nat.eqb r) (p (lvl r)) then p else set_nat p (lvl r) (r :: p (lvl r)).

Section Spec.
Variable n : nat.                      (* the number of workers *)
Variable top : nat.                    (* the highest level *)
Variable lvl : reaction -> nat.

Definition settled (o : observed) : bool :=
  is_nil (pending o (level o)) && forallb (fun w => is_none (busy o w)) (seq 0 n).

Definition accept (o : observed) (e : event) : option observed :=
  match e with
  | Trigger w r =>
      match busy o w with
      | Some _ => if Nat.ltb (level o) (lvl r) && Nat.leb (lvl r) top
                  then Some (mkObserved (add lvl (pending o) r) (level o) (busy o)) else None
      | None => None
      end
  | Take w r =>
      match busy o w, remove_one r (pending o (level o)) with
      | None, Some l => if Nat.eqb (lvl r) (level o) && Nat.ltb w n
                        then Some (mkObserved (set_nat (pending o) (level o) l) (level o) (set_nat (busy o) w (Some r))) else None
      | _, _ => None
      end
  | Done w =>
      match busy o w with
      | Some _ => Some (mkObserved (pending o) (level o) (set_nat (busy o) w None))
      | None => None
      end
  | NextLevel => if settled o && Nat.ltb (level o) top then Some (mkObserved (pending o) (S (level o)) (busy o)) else None
  | NextTag rs =>
      if settled o && Nat.eqb (level o) top && forallb (fun r => Nat.leb (lvl r) top) rs
      then Some (mkObserved (fold_left (add lvl) rs (pending o)) 0 (busy o)) else None
  end.

Fixpoint accepts (o : observed) (es : list event) : option observed :=
  match es with
  | [] => Some o
  | e :: es => match accept o e with Some o => accepts o es | None => None end
  end.

(** At the start the reactions [rs] have been triggered and nothing runs. *)
Definition observed0 (rs : list reaction) : observed :=
  mkObserved (fold_left (add lvl) rs (fun _ => [])) 0 (fun _ => None).
End Spec.

(** A program: [rs] are its reactions, every level up to the highest has one. *)
Record program_ok (n top : nat) (lvl : reaction -> nat) (rs : list reaction) : Prop := {
  p_workers : (1 <= n)%nat;
  p_nodup : NoDup rs;
  p_top : forall r, In r rs -> (lvl r <= top)%nat;
  p_levels : forall l, (l <= top)%nat -> exists r, In r rs /\ lvl r = l }.
(** The number of reactions of a level. *)
Definition reactions_at (lvl : reaction -> nat) (rs : list reaction) (l : nat) : nat := List.length (filter (fun r => Nat.eqb (lvl r) l) rs).

(** ** Facts about the automaton and about counting workers. *)
Lemma accepts_app n top lvl a : forall o b, accepts n top lvl o (a ++ b) = match accepts n top lvl o a with Some o => accepts n top lvl o b | None => None end.
Proof. induction a as [|e a IH]; intros o b; cbn [app accepts]; [reflexivity|]. destruct (accept n top lvl o e); [apply IH|reflexivity]. Qed.

Lemma set_nat_eq {A} (f : nat -> A) k a : set_nat f k a k = a.
Proof. unfold set_nat. now rewrite Nat.eqb_refl. Qed.
Lemma set_nat_neq {A} (f : nat -> A) k a i : i <> k -> set_nat f k a i = f i.
Proof. intros H. unfold set_nat. destruct (Nat.eqb_spec i k); [contradiction|reflexivity]. Qed.

Lemma remove_one_perm r l : In r l -> exists l', remove_one r l = Some l' /\ Permutation l (r :: l').
Proof.
  induction l as [|x l IH]; intros H; [destruct H|]. cbn [remove_one]. destruct (Nat.eqb_spec x r) as [->|N]; [exists l; auto|].
  destruct H as [H|H]; [contradiction|]. destruct (IH H) as (l' & -> & P). exists (x :: l'). split; [reflexivity|]. rewrite P. apply perm_swap.
Qed.

Lemma flat_swap {A} (f g : nat -> list A) n i : (i < n)%nat -> (forall j, j <> i -> f j = g j) ->
  Permutation (g i ++ flat_map f (seq 0 n)) (f i ++ flat_map g (seq 0 n)).
Proof.
  induction n as [|n IH]; intros H E; [lia|]. rewrite seq_S, !flat_map_app. cbn. rewrite !app_nil_r.
  destruct (Nat.eq_dec i n) as [->|N].
  - assert (flat_map f (seq 0 n) = flat_map g (seq 0 n)) as ->.
    { rewrite !flat_map_concat_map. f_equal. apply map_ext_in. intros j Hj. apply in_seq in Hj. apply E. lia. }
    etransitivity; [apply Permutation_app_comm|]. rewrite (app_assoc (f n)). apply Permutation_app_tail, Permutation_app_comm.
  - rewrite E by auto. rewrite !app_assoc. apply Permutation_app_tail. apply IH; [lia|exact E].
Qed.

(** The number of workers whose program counter satisfies [P]. *)
Definition count {A} (P : A -> bool) (f : nat -> A) (n : nat) : nat := List.length (filter (fun w => P (f w)) (seq 0 n)).
Lemma count_S {A} (P : A -> bool) f n : count P f (S n) = (count P f n + if P (f n) then 1 else 0)%nat.
Proof. unfold count. rewrite seq_S, filter_app, app_length. cbn. destruct (P (f n)); reflexivity. Qed.
Lemma count_ext {A} (P : A -> bool) f g n : (forall w, w < n -> P (f w) = P (g w))%nat -> count P f n = count P g n.
Proof. induction n as [|n IH]; intros H; [reflexivity|]. rewrite !count_S, IH by auto. rewrite H by lia. reflexivity. Qed.
Lemma count_set {A} (P : A -> bool) f n w a : (w < n)%nat ->
  (count P (set_nat f w a) n + (if P (f w) then 1 else 0) = count P f n + (if P a then 1 else 0))%nat.
Proof.
  induction n as [|n IH]; intros H; [lia|]. rewrite !count_S. destruct (Nat.eq_dec w n) as [->|N].
  - rewrite set_nat_eq. rewrite (count_ext P (set_nat f n a) f n); [lia|]. intros v Hv. rewrite set_nat_neq by lia. reflexivity.
  - rewrite set_nat_neq by auto. specialize (IH ltac:(lia)). lia.
Qed.
Lemma count_le {A} (P : A -> bool) f n : (count P f n <= n)%nat.
Proof. induction n as [|n IH]; [cbn; lia|]. rewrite count_S. destruct (P (f n)); lia. Qed.
Lemma count_all {A} (P : A -> bool) f n : count P f n = n -> forall w, (w < n)%nat -> P (f w) = true.
Proof.
  induction n as [|n IH]; intros H w Hw; [lia|]. rewrite count_S in H. pose proof (count_le P f n). destruct (P (f n)) eqn:E; [|lia].
  destruct (Nat.eq_dec w n) as [->|]; [exact E|apply IH; lia].
Qed.
Lemma count_none {A} (P : A -> bool) f n : count P f n = 0%nat -> forall w, (w < n)%nat -> P (f w) = false.
Proof.
  induction n as [|n IH]; intros H w Hw; [lia|]. rewrite count_S in H. destruct (P (f n)) eqn:E; [lia|].
  destruct (Nat.eq_dec w n) as [->|]; [exact E|apply IH; lia].
Qed.
Lemma count_pos {A} (P : A -> bool) f n w : (w < n)%nat -> P (f w) = true -> (0 < count P f n)%nat.
Proof.
  induction n as [|n IH]; intros H E; [lia|]. rewrite count_S. destruct (Nat.eq_dec w n) as [->|]; [rewrite E; lia|]. specialize (IH ltac:(lia) E). lia.
Qed.
Lemma count_const {A} (P : A -> bool) a n : count P (fun _ => a) n = if P a then n else 0%nat.
Proof. induction n as [|n IH]; [destruct (P a); reflexivity|]. rewrite count_S, IH. destruct (P a); lia. Qed.
(** If all workers but one satisfy the predicate, a second exception is impossible. *)
Lemma count_but_one {A} (P : A -> bool) f n w v : (S (count P f n) = n)%nat -> (w < n)%nat -> P (f w) = false -> (v < n)%nat -> v <> w -> P (f v) = true.
Proof.
  intros C W E V N. destruct (P (f v)) eqn:Ev; [reflexivity|exfalso].
  revert C W E V Ev. induction n as [|n IH]; intros C W E V Ev; [lia|]. rewrite count_S in C.
  destruct (Nat.eq_dec w n) as [->|]; [|destruct (Nat.eq_dec v n) as [->|]].
  - rewrite E in C. assert (count P f n = n) by lia. pose proof (count_all P f n H v ltac:(lia)). congruence.
  - rewrite Ev in C. assert (count P f n = n) by lia. pose proof (count_all P f n H w ltac:(lia)). congruence.
  - destruct (P (f n)) eqn:En; [apply IH; lia|]. assert (count P f n = n) by lia. pose proof (count_all P f n H w ltac:(lia)). congruence.
Qed.
