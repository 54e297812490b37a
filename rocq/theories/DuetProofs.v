(** Conversations do not depend on the schedule. *)
From Verif Require Import Base Duet DuetSpec.
Local Open Scope Z_scope.

Inductive path {A B} : duet A B -> nat -> duet A B -> Prop :=
| path_nil s : path s 0 s
| path_cons s b s' m fin : step b s = Some s' -> path s' m fin -> path s (S m) fin.

Lemma path_trans {A B} (s : duet A B) m s' m' fin : path s m s' -> path s' m' fin -> path s (m + m') fin.
Proof. induction 1; intros P; [exact P|]. cbn [Nat.add]. econstructor; [eassumption|]. apply IHpath. exact P. Qed.

Lemma act_more {A} (p : proc A) w c p' w' b x : c = false -> act p w c = Some (p', w', b) -> act p (w ++ x) c = Some (p', w' ++ x, b).
Proof.
  intros ->. destruct p as [cl a|bs p|n e k]; cbn [act]; [discriminate|intros E; congruence|].
  destruct (Nat.leb_spec n (length w)) as [L|L]; [|discriminate]. intros E.
  rewrite app_length. rewrite (proj2 (Nat.leb_le _ _)) by lia.
  rewrite firstn_app, skipn_app. assert (n - length w = 0)%nat as -> by lia. cbn [firstn skipn]. rewrite app_nil_r. congruence.
Qed.
Lemma act_open {A} (p : proc A) w c x : act p w c = Some x -> closed p = false.
Proof. destruct p; cbn [act closed]; [discriminate|reflexivity|reflexivity]. Qed.

Lemma diamond {A B} (s s1 s2 : duet A B) : step true s = Some s1 -> step false s = Some s2 ->
  exists s3, step false s1 = Some s3 /\ step true s2 = Some s3.
Proof.
  unfold step. destruct (act (one s) (to_one s) (closed (two s))) as [[[p w] b]|] eqn:E1; [|discriminate].
  destruct (act (two s) (to_two s) (closed (one s))) as [[[q v] d]|] eqn:E2; [|discriminate].
  intros X Y. injection X as <-. injection Y as <-. cbn [one two to_one to_two].
  pose proof (act_open _ _ _ _ E1) as C1. pose proof (act_open _ _ _ _ E2) as C2. rewrite C2 in E1. rewrite C1 in E2.
  assert (F1 : forall c, act (one s) (to_one s ++ d) c = Some (p, w ++ d, b)).
  { intros [|]; [|apply act_more; [reflexivity|exact E1]]. pose proof (act_more _ _ _ _ _ _ d eq_refl E1) as X. revert X. destruct (one s) as [|bs p0|n e k]; cbn [act]; [discriminate|auto|].
    destruct (n <=? length (to_one s ++ d))%nat; [auto|discriminate]. }
  assert (F2 : forall c, act (two s) (to_two s ++ b) c = Some (q, v ++ b, d)).
  { intros [|]; [|apply act_more; [reflexivity|exact E2]]. pose proof (act_more _ _ _ _ _ _ b eq_refl E2) as X. revert X. destruct (two s) as [|bs p0|n e k]; cbn [act]; [discriminate|auto|].
    destruct (n <=? length (to_two s ++ b))%nat; [auto|discriminate]. }
  rewrite F1, F2. eexists. split; reflexivity.
Qed.

Lemma path_step {A B} (s fin : duet A B) m : path s m fin -> stuck fin -> forall b s', step b s = Some s' -> exists m', m = S m' /\ path s' m' fin.
Proof.
  induction 1 as [s|s c s1 m fin E P IH]; intros [S1 S2] b s' E'.
  - exfalso. destruct b; congruence.
  - exists m. split; [reflexivity|]. destruct (Bool.bool_dec b c) as [->|ne].
    + assert (s1 = s') by congruence. subst. exact P.
    + assert (D : exists s3, step b s1 = Some s3 /\ step c s' = Some s3).
      { destruct b, c; try contradiction.
        - destruct (diamond s s' s1 E' E) as (s3 & X & Y). exists s3. split; assumption.
        - destruct (diamond s s1 s' E E') as (s3 & X & Y). exists s3. split; assumption. }
      destruct D as (s3 & D1 & D2). destruct (IH (conj S1 S2) b s3 D1) as (m' & -> & P'). econstructor; eassumption.
Qed.
Lemma path_run {A B} : forall l (s fin : duet A B) m, path s m fin -> stuck fin -> exists m', path (run l s) m' fin /\ (m' + actions l s = m)%nat.
Proof.
  induction l as [|b l IH]; intros s fin m P F; cbn [run actions]; [exists m; split; [exact P|lia]|].
  destruct (step b s) as [s'|] eqn:E.
  - destruct (path_step s fin m P F b s' E) as (m' & -> & P'). destruct (IH s' fin m' P' F) as (m2 & P2 & EQ). exists m2. split; [exact P2|lia].
  - apply IH; assumption.
Qed.
Lemma run_app {A B} : forall l l' (s : duet A B), run (l ++ l') s = run l' (run l s).
Proof. induction l as [|b l IH]; intros l' s; [reflexivity|]. cbn [app run]. apply IH. Qed.
Lemma path_schedule {A B} (s fin : duet A B) m : path s m fin -> exists l, run l s = fin.
Proof. induction 1 as [s|s b s' m fin E P (l & IH)]; [exists []; reflexivity|]. exists (b :: l). cbn [run]. rewrite E. exact IH. Qed.
Lemma path_ends {A B} (s fin : duet A B) m : path s m fin -> stuck fin -> always_ends s fin.
Proof.
  intros P F. split; [exact F|]. split; [|split].
  - intros l. destruct (path_run l s fin m P F) as (m' & P' & _). destruct (path_schedule _ _ _ P') as [l' E]. exists l'. rewrite run_app. exact E.
  - intros l ST. destruct (path_run l s fin m P F) as (m' & P' & _). inversion P' as [|? b s' ? ? E]; subst; [reflexivity|]. exfalso. destruct ST as [A1 A2]. destruct b; congruence.
  - exists m. intros l. destruct (path_run l s fin m P F) as (m' & _ & E). lia.
Qed.

(** ** Building paths. *)
Definition goes {A B} (s fin : duet A B) : Prop := exists m, path s m fin.
Lemma goes_refl {A B} (s : duet A B) : goes s s.
Proof. exists 0%nat. constructor. Qed.
Lemma goes_trans {A B} (s s' fin : duet A B) : goes s s' -> goes s' fin -> goes s fin.
Proof. intros [m P] [m' P']. exists (m + m')%nat. apply (path_trans s m s' m' fin P P'). Qed.
Lemma goes_step {A B} b (s s' fin : duet A B) : step b s = Some s' -> goes s' fin -> goes s fin.
Proof. intros E [m P]. exists (S m). econstructor; eassumption. Qed.
Lemma goes_ends {A B} (s fin : duet A B) : goes s fin -> stuck fin -> always_ends s fin.
Proof. intros [m P] F. apply (path_ends s fin m P F). Qed.
(** The first sends what the second reads, and the other way round. *)
Lemma one_sends {A B} b (p : proc A) (q : proc B) u v fin : goes (mkDuet p q (u ++ b) v) fin -> goes (mkDuet (Send b p) q u v) fin.
Proof. apply (goes_step true). reflexivity. Qed.
Lemma two_sends {A B} b (p : proc A) (q : proc B) u v fin : goes (mkDuet p q u (v ++ b)) fin -> goes (mkDuet p (Send b q) u v) fin.
Proof. apply (goes_step false). reflexivity. Qed.
Lemma one_reads {A B} b n (e : proc A) k (q : proc B) u v fin : length b = n -> goes (mkDuet (k b) q u v) fin -> goes (mkDuet (Recv n e k) q u (b ++ v)) fin.
Proof.
  intros L. apply (goes_step true). unfold step. cbn [one two to_one to_two act]. rewrite app_length. rewrite (proj2 (Nat.leb_le _ _)) by lia.
  rewrite firstn_app, skipn_app. assert (n - length b = 0)%nat as -> by lia. subst n. rewrite firstn_all, skipn_all. cbn [firstn skipn app]. rewrite !app_nil_r. reflexivity.
Qed.
Lemma two_reads {A B} b n (p : proc A) (e : proc B) k u v fin : length b = n -> goes (mkDuet p (k b) u v) fin -> goes (mkDuet p (Recv n e k) (b ++ u) v) fin.
Proof.
  intros L. apply (goes_step false). unfold step. cbn [one two to_one to_two act]. rewrite app_length. rewrite (proj2 (Nat.leb_le _ _)) by lia.
  rewrite firstn_app, skipn_app. assert (n - length b = 0)%nat as -> by lia. subst n. rewrite firstn_all, skipn_all. cbn [firstn skipn app]. rewrite !app_nil_r. reflexivity.
Qed.
(** The other side has closed and not enough is left. *)
Lemma one_eof {A B} n (e : proc A) k (a : B) u v fin : (length v < n)%nat -> goes (mkDuet e (Over true a) u []) fin -> goes (mkDuet (Recv n e k) (Over true a) u v) fin.
Proof.
  intros L. apply (goes_step true). unfold step. cbn [one two to_one to_two act closed]. rewrite (proj2 (Nat.leb_gt _ _)) by assumption. rewrite app_nil_r. reflexivity.
Qed.
Lemma two_eof {A B} n (a : A) (e : proc B) k u v fin : (length u < n)%nat -> goes (mkDuet (Over true a) e [] v) fin -> goes (mkDuet (Over true a) (Recv n e k) u v) fin.
Proof.
  intros L. apply (goes_step false). unfold step. cbn [one two to_one to_two act closed]. rewrite (proj2 (Nat.leb_gt _ _)) by assumption. rewrite app_nil_r. reflexivity.
Qed.
Lemma stuck_over {A B} c c' (a : A) (b : B) u v : stuck (mkDuet (Over c a) (Over c' b) u v).
Proof. split; reflexivity. Qed.
Lemma stuck_wait {A B} n (e : proc A) k (b : B) u v : (length v < n)%nat -> stuck (mkDuet (Recv n e k) (Over false b) u v).
Proof. intros L. split; [|reflexivity]. unfold step. cbn [one two to_one to_two act closed]. rewrite (proj2 (Nat.leb_gt _ _)) by assumption. reflexivity. Qed.
Lemma stuck_both {A B} n (e : proc A) k n' (e' : proc B) k' u v : (length v < n)%nat -> (length u < n')%nat -> stuck (mkDuet (Recv n e k) (Recv n' e' k') u v).
Proof. intros L L'. split; unfold step; cbn [one two to_one to_two act closed]; rewrite (proj2 (Nat.leb_gt _ _)) by assumption; reflexivity. Qed.
