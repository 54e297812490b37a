From Verif Require Import Base Pqueue PqueueProofs Vector VectorSpec.
Open Scope nat_scope.

Definition vabs (v : vec) : list (option nat) := map (v_cells v) (seq 0 (v_next v)).
Definition vinv (v : vec) : Prop := v_next v <= v_cap v /\ 1 <= v_cap v.

Lemma vabs_len v : length (vabs v) = v_next v.
Proof. unfold vabs. rewrite map_length, seq_length; reflexivity. Qed.

Lemma seq_map_ext (f g : nat -> option nat) n : (forall i, i < n -> f i = g i) ->
  map f (seq 0 n) = map g (seq 0 n).
Proof. intros H. apply map_ext_in. intros i Hi. apply in_seq in Hi. apply H; lia. Qed.

Lemma resize_ok v c : v_next v <= c -> 1 <= c -> v_next v <= v_cap v ->
  exists v', vec_resize v c = Ok v' /\ v_next v' = v_next v /\ v_cap v' = c /\ vabs v' = vabs v.
Proof.
  intros H1 H2 H3. unfold vec_resize.
  destruct (Nat.eqb_spec c 0); [lia|]. destruct (Nat.ltb_spec c (v_next v)); [lia|].
  eexists; split; [reflexivity|]. cbn [v_next v_cap]. repeat split.
  unfold vabs; cbn [v_next v_cells]. apply seq_map_ext. intros i Hi.
  destruct (Nat.ltb_spec i (v_cap v)); [|lia]. destruct (Nat.ltb_spec i c); [reflexivity|lia].
Qed.

Lemma store_ok v i x : i < v_cap v ->
  vec_store v i x = Ok (mkVec (upd (v_cells v) i (Some x)) (v_next v) (v_cap v) (v_req v) (v_votes v)).
Proof. unfold vec_store. destruct (Nat.ltb_spec i (v_cap v)); [reflexivity|lia]. Qed.

Lemma push_ok v x : vinv v -> exists v', vec_push v x = Ok v' /\ vinv v' /\ vabs v' = vabs v ++ [Some x].
Proof.
  intros [H1 H2]. unfold vec_push.
  assert (H : exists v1, (if v_next v =? v_cap v then vec_resize (vec_inc_req v) (v_cap v * SCALE_FACTOR) else Ok v) = Ok v1
     /\ v_next v1 = v_next v /\ v_next v1 < v_cap v1 /\ vabs v1 = vabs v).
  { destruct (Nat.eqb_spec (v_next v) (v_cap v)) as [E|n].
    - destruct (resize_ok (vec_inc_req v) (v_cap v * SCALE_FACTOR)) as (v1 & E1 & En & Ec & Ea);
        unfold SCALE_FACTOR in *; cbn [vec_inc_req v_next v_cap] in *; try lia.
      exists v1. repeat split; try assumption; try lia.
    - exists v. repeat split; lia. }
  destruct H as (v1 & E1 & En & Hlt & Ea). rewrite E1. cbn [bind].
  rewrite store_ok by assumption. cbn [bind]. eexists; split; [reflexivity|]. split.
  - split; cbn [vec_set_next v_next v_cap]; lia.
  - unfold vabs; cbn [vec_set_next v_next v_cells]. rewrite seq_S, map_app. cbn [map].
    rewrite Nat.add_0_l, upd_eq. f_equal. unfold vabs in Ea. rewrite <- Ea.
    apply seq_map_ext. intros i Hi. apply upd_neq; lia.
Qed.

Lemma store_all_ok : forall xs v base, base + length xs <= v_cap v -> Forall (fun x => x <> 0) xs ->
  exists v', vec_store_all v base xs = Ok v' /\ v_next v' = v_next v /\ v_cap v' = v_cap v /\
    (forall i, i < base -> v_cells v' i = v_cells v i) /\
    map (v_cells v') (seq base (length xs)) = map Some xs.
Proof.
  induction xs as [|x xs IH]; intros v base Hl Hf; cbn [vec_store_all].
  - exists v. repeat split.
  - apply Forall_cons_iff in Hf as [Hx Hf]. cbn [length] in Hl.
    destruct (Nat.eqb_spec x 0); [contradiction|]. rewrite store_ok by lia. cbn [bind].
    edestruct (IH (mkVec (upd (v_cells v) base (Some x)) (v_next v) (v_cap v) (v_req v) (v_votes v)) (S base))
      as (v' & E & En & Ec & Hk & Hm).
    + cbn [v_cap]; lia.
    + exact Hf.
    + exists v'. rewrite E. cbn [v_next v_cap v_cells] in *. repeat split; try assumption.
      * intros i Hi. rewrite Hk by lia. apply upd_neq; lia.
      * cbn [length seq map]. rewrite Hm. f_equal. rewrite Hk by lia. apply upd_eq.
Qed.

Lemma pushall_ok v xs : vinv v -> Forall (fun x => x <> 0) xs ->
  exists v', vec_pushall v xs = Ok v' /\ vinv v' /\ vabs v' = vabs v ++ map Some xs.
Proof.
  intros [H1 H2] Hf. unfold vec_pushall.
  assert (H : exists v1, (if v_cap v <? v_next v + length xs then vec_resize v ((v_next v + length xs) * SCALE_FACTOR) else Ok v) = Ok v1
     /\ v_next v1 = v_next v /\ v_next v1 + length xs <= v_cap v1 /\ 1 <= v_cap v1 /\ vabs v1 = vabs v).
  { destruct (Nat.ltb_spec (v_cap v) (v_next v + length xs)) as [E|n].
    - destruct (resize_ok v ((v_next v + length xs) * SCALE_FACTOR)) as (v1 & E1 & En & Ec & Ea);
        unfold SCALE_FACTOR in *; try lia.
      exists v1. repeat split; try assumption; try lia.
    - exists v. repeat split; lia. }
  destruct H as (v1 & E1 & En & Hc & Hc1 & Ea). rewrite E1. cbn [bind].
  destruct (store_all_ok xs v1 (v_next v1) Hc Hf) as (v2 & E2 & En2 & Ec2 & Hk & Hm).
  rewrite E2. cbn [bind]. eexists; split; [reflexivity|]. split.
  - split; cbn [vec_set_next v_next v_cap]; lia.
  - unfold vabs; cbn [vec_set_next v_next v_cells]. rewrite En2, seq_app, map_app. f_equal.
    + unfold vabs in Ea. rewrite <- Ea. apply seq_map_ext. exact Hk.
    + rewrite Nat.add_0_l. exact Hm.
Qed.

Lemma pop_ok v : vinv v -> exists v' r, vec_pop v = Ok (v', r) /\ vinv v' /\
  match r with None => vabs v = [] /\ vabs v' = [] | Some c => vabs v = vabs v' ++ [c] end.
Proof.
  intros [H1 H2]. unfold vec_pop. destruct (Nat.eqb_spec (v_next v) 0) as [E|n].
  - assert (Ea : vabs v = []) by (unfold vabs; rewrite E; reflexivity).
    destruct (Nat.leb_spec (v_req v) (v_votes v)) as [Hv|Hv].
    + destruct (Nat.ltb_spec 0 (v_cap v / SCALE_FACTOR)) as [Hc|Hc].
      * destruct (resize_ok v (v_cap v / SCALE_FACTOR)) as (v1 & E1 & En & Ec & Ea1); try lia.
        rewrite E1. cbn [bind]. eexists _, _; split; [reflexivity|]. split; [split; lia|].
        split; [exact Ea|congruence].
      * cbn [bind]. eexists _, _; split; [reflexivity|]. split; [split; lia|split; exact Ea].
    + cbn [bind]. eexists _, _; split; [reflexivity|]. split; [split; lia|split; exact Ea].
  - destruct (Nat.ltb_spec (v_next v - 1) (v_cap v)); [|lia].
    eexists _, _; split; [reflexivity|]. split; [split; cbn [vec_set_next v_next v_cap]; lia|].
    unfold vabs; cbn [vec_set_next v_next v_cells].
    replace (v_next v) with (S (v_next v - 1)) at 1 by lia.
    rewrite seq_S, map_app. reflexivity.
Qed.

Lemma grow_to_ok : forall fuel n idx, 1 <= n -> idx < fuel + n -> exists m, grow_to (S fuel) n idx = Ok m /\ idx < m /\ n <= m.
Proof.
  induction fuel as [|fuel IH]; intros n idx Hn Hf; cbn [grow_to]; unfold SCALE_FACTOR.
  - destruct (Nat.leb_spec n idx); [lia|]. exists n; repeat split; lia.
  - destruct (Nat.leb_spec n idx) as [H|H]; [|exists n; repeat split; lia].
    destruct (IH (n * 2) idx ltac:(lia) ltac:(lia)) as (m & E & H1 & H2).
    cbn [grow_to] in E. unfold SCALE_FACTOR in E. exists m. split; [exact E|lia].
Qed.

Lemma firstn_map_seq {A} (f : nat -> A) n m : n <= m -> firstn n (map f (seq 0 m)) = map f (seq 0 n).
Proof.
  intros H. rewrite firstn_map. f_equal.
  replace m with (n + (m - n)) by lia. rewrite seq_app.
  rewrite firstn_app, seq_length, Nat.sub_diag. cbn [firstn]. rewrite app_nil_r.
  rewrite <- (seq_length n 0) at 1. apply firstn_all.
Qed.

Lemma at_ok v i : vinv v -> exists v', vec_at v i = Ok v' /\ vinv v' /\ i < v_cap v' /\ i < v_next v' /\
  v_next v' = Nat.max (v_next v) (i + 1) /\ firstn (v_next v) (vabs v') = vabs v.
Proof.
  intros [H1 H2]. unfold vec_at.
  set (v1 := if v_next v <? i + 1 then vec_set_next v (i + 1) else v).
  assert (Hv1 : v_next v1 = Nat.max (v_next v) (i + 1) /\ v_cap v1 = v_cap v /\ v_cells v1 = v_cells v).
  { unfold v1. destruct (Nat.ltb_spec (v_next v) (i + 1)); cbn [vec_set_next v_next v_cap v_cells]; repeat split; lia. }
  destruct Hv1 as (En & Ec & Ecs). clearbody v1.
  destruct (Nat.leb_spec (v_cap v1) (v_next v1)) as [Hle|Hgt].
  - destruct (grow_to_ok i (v_cap v1 * SCALE_FACTOR) i) as (m & Em & Hm1 & Hm2); unfold SCALE_FACTOR in *; try lia.
    rewrite Em. cbn [bind]. unfold vec_resize. cbn [vec_inc_req v_next v_cap v_cells v_req].
    destruct (Nat.eqb_spec m 0); [lia|]. destruct (Nat.ltb_spec m (v_next v1)); [lia|].
    eexists; split; [reflexivity|]. cbn [v_next v_cap]. split; [split; cbn [v_next v_cap]; lia|].
    split; [lia|]. split; [lia|]. split; [exact En|].
    unfold vabs; cbn [v_next v_cells]. rewrite firstn_map_seq by lia.
    apply seq_map_ext. intros k Hk. rewrite Ecs.
    destruct (Nat.ltb_spec k (v_cap v1)); [|lia]. destruct (Nat.ltb_spec k m); [reflexivity|lia].
  - exists v1. split; [reflexivity|]. split; [split; lia|]. split; [lia|]. split; [lia|]. split; [exact En|].
    unfold vabs. rewrite firstn_map_seq by lia. rewrite Ecs. reflexivity.
Qed.

Lemma map_upd_split (f : nat -> option nat) i x n : i < n ->
  map (upd f i (Some x)) (seq 0 n) = firstn i (map f (seq 0 n)) ++ [Some x] ++ skipn (i + 1) (map f (seq 0 n)).
Proof.
  intros H. replace n with (i + S (n - i - 1)) by lia.
  rewrite seq_app, !map_app. cbn [seq map]. rewrite Nat.add_0_l.
  assert (L : length (map f (seq 0 i)) = i) by (rewrite map_length, seq_length; reflexivity).
  rewrite firstn_app, L, Nat.sub_diag. cbn [firstn]. rewrite app_nil_r.
  rewrite (firstn_all2 (map f (seq 0 i))) by (rewrite L; lia).
  rewrite skipn_app, L. replace (i + 1 - i) with 1 by lia. cbn [skipn].
  rewrite skipn_all2 by (rewrite L; lia). cbn [app].
  f_equal; [apply seq_map_ext; intros; apply upd_neq; lia|].
  rewrite upd_eq. f_equal. apply map_ext_in. intros k Hk. apply in_seq in Hk. apply upd_neq; lia.
Qed.

Lemma vec_step_ok v o : vinv v -> vpre o ->
  exists v' out, vec_step v o = Ok (v', out) /\ vinv v' /\ vspec (vabs v) o (vabs v') out.
Proof.
  intros Hv Hp. destruct o as [x|xs| |i|i x| |]; cbn [vec_step].
  - destruct (push_ok v x Hv) as (v' & E & Hi & Ha). rewrite E. cbn. eexists _, _; split; [reflexivity|]. split; assumption.
  - destruct (pushall_ok v xs Hv Hp) as (v' & E & Hi & Ha). rewrite E. cbn. eexists _, _; split; [reflexivity|]. split; assumption.
  - destruct (pop_ok v Hv) as (v' & r & E & Hi & Ha). rewrite E. cbn. eexists _, _; split; [reflexivity|].
    split; [assumption|]. destruct r; exact Ha.
  - destruct (at_ok v i Hv) as (v' & E & Hi & Hc & Hn & Hl & Ha). rewrite E. cbn [bind].
    destruct (Nat.ltb_spec i (v_cap v')); [|lia].
    eexists _, _; split; [reflexivity|]. split; [assumption|]. cbn [vspec].
    rewrite !vabs_len. split; [lia|]. split; [exact Ha|].
    unfold vabs. rewrite nth_error_map. rewrite (nth_error_nth' _ 0) by (rewrite seq_length; lia).
    rewrite seq_nth by lia. reflexivity.
  - destruct (at_ok v i Hv) as (v' & E & Hi & Hc & Hn & Hl & Ha). rewrite E. cbn [bind].
    rewrite store_ok by assumption. cbn [bind]. eexists _, _; split; [reflexivity|].
    split; [split; cbn [v_next v_cap]; destruct Hi; lia|]. cbn [vspec].
    exists (vabs v'). rewrite !vabs_len. split; [lia|]. split; [exact Ha|].
    unfold vabs; cbn [v_next v_cells]. apply map_upd_split; assumption.
  - eexists _, _; split; [reflexivity|]. split; [assumption|]. cbn. rewrite vabs_len. split; reflexivity.
  - eexists _, _; split; [reflexivity|]. split; [destruct Hv; split; cbn; assumption|]. reflexivity.
Qed.

Lemma vec_run_ok : forall ops v, vinv v -> Forall vpre ops ->
  exists v' outs, vec_run v ops = Ok (v', outs) /\ vinv v' /\ vspec_run (vabs v) ops (vabs v') outs.
Proof.
  induction ops as [|o os IH]; intros v Hv Hf.
  - exists v, []. split; [reflexivity|]. split; [exact Hv|constructor].
  - apply Forall_cons_iff in Hf as [Ho Hf].
    destruct (vec_step_ok v o Hv Ho) as (v1 & out & E & Hv1 & Hs).
    destruct (IH v1 Hv1 Hf) as (v2 & outs & E2 & Hv2 & Hs2).
    exists v2, (out :: outs). cbn [vec_run]. rewrite E. cbn [bind fst snd]. rewrite E2. cbn [bind fst snd].
    split; [reflexivity|]. split; [exact Hv2|econstructor; eassumption].
Qed.
