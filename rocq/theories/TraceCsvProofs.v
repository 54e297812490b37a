(** Proofs about the conversion of traces (C76). *)
From Coq Require Import Arith.
From Verif Require Import Base Net TraceFile TraceCsv TraceCsvSpec.
Open Scope Z_scope.

(** *** Lists *)
Lemma range_S a n : range a (S n) = range a n ++ [a + Z.of_nat n].
Proof. unfold range. rewrite seq_S, map_app. reflexivity. Qed.
Lemma range_app a n m : range a (n + m) = range a n ++ range (a + Z.of_nat n) m.
Proof.
  unfold range. rewrite seq_app, map_app. f_equal. cbn [plus]. replace (seq n m) with (map (fun i => (n + i)%nat) (seq 0 m)).
  - rewrite map_map. apply map_ext. intros i. lia.
  - clear. revert n. induction m as [|m IH]; intros n; [reflexivity|]. cbn [seq map]. f_equal; [lia|]. rewrite <- seq_shift, map_map. rewrite <- (IH (S n)). apply map_ext. intros; lia.
Qed.
Lemma in_range_iff a n x : In x (range a n) <-> a <= x < a + Z.of_nat n.
Proof.
  unfold range. rewrite in_map_iff. split.
  - intros (i & <- & H). apply in_seq in H. lia.
  - intros H. exists (Z.to_nat (x - a)). split; [lia|]. apply in_seq. lia.
Qed.
Lemma flat_map_ext_in {A B} (f g : A -> list B) l : (forall x, In x l -> f x = g x) -> flat_map f l = flat_map g l.
Proof. induction l as [|x l IH]; intros H; [reflexivity|]. cbn [flat_map]. rewrite (H x), IH; [reflexivity| |left; reflexivity]. intros y Hy. apply H. right. exact Hy. Qed.
Lemma flat_map_nil {A B} (f : A -> list B) l : (forall x, In x l -> f x = []) -> flat_map f l = [].
Proof. induction l as [|x l IH]; intros H; [reflexivity|]. cbn [flat_map]. rewrite (H x), IH; [reflexivity| |left; reflexivity]. intros y Hy. apply H. right. exact Hy. Qed.
Lemma flat_map_table {A B} (g : Z -> list B) (h : A -> list B) a t : (forall i o, nth_error t i = Some o -> g (a + Z.of_nat i) = h o) -> flat_map g (range a (length t)) = flat_map h t.
Proof.
  induction t as [|o t IH] using rev_ind; intros H; [reflexivity|]. rewrite app_length. cbn [length]. rewrite Nat.add_1_r, range_S, !flat_map_app. f_equal.
  - apply IH. intros i o' Ho. apply H. rewrite nth_error_app1; [exact Ho|]. apply nth_error_Some. congruence.
  - cbn [flat_map]. rewrite (H (length t) o); [reflexivity|]. rewrite nth_error_app2, Nat.sub_diag; [reflexivity|lia].
Qed.
Lemma flat_map_pairs {B} (g : Z -> list B) a m : flat_map g (range a (2 * m)) = flat_map (fun w => g (a + 2 * w) ++ g (a + 2 * w + 1)) (range 0 m).
Proof.
  induction m as [|m IH]; [reflexivity|]. replace (2 * S m)%nat with (S (S (2 * m))) by lia. rewrite !range_S, !flat_map_app, IH, <- app_assoc. f_equal. cbn [flat_map]. rewrite !app_nil_r. f_equal; f_equal; lia.
Qed.
Lemma filter_filter {A} (f g : A -> bool) l : filter f (filter g l) = filter (fun x => g x && f x) l.
Proof. induction l as [|x l IH]; [reflexivity|]. cbn [filter]. destruct (g x); cbn [filter andb]; [destruct (f x); rewrite IH; reflexivity|exact IH]. Qed.
Lemma filter_ext_in' {A} (f g : A -> bool) l : (forall x, In x l -> f x = g x) -> filter f l = filter g l.
Proof. induction l as [|x l IH]; intros H; [reflexivity|]. cbn [filter]. rewrite (H x), IH; [reflexivity| |left; reflexivity]. intros y Hy. apply H. right. exact Hy. Qed.
Lemma filter_all {A} (f : A -> bool) l : (forall x, In x l -> f x = true) -> filter f l = l.
Proof. induction l as [|x l IH]; intros H; [reflexivity|]. cbn [filter]. rewrite (H x), IH; [reflexivity| |left; reflexivity]. intros y Hy. apply H. right. exact Hy. Qed.
Lemma filter_none {A} (f : A -> bool) l : (forall x, In x l -> f x = false) -> filter f l = [].
Proof. induction l as [|x l IH]; intros H; [reflexivity|]. cbn [filter]. rewrite (H x), IH; [reflexivity| |left; reflexivity]. intros y Hy. apply H. right. exact Hy. Qed.

(** *** Lookups *)
Lemma lookup_find p t : forall i, match lookup p i t with Some (o, j) => find p t = Some o /\ i <= j < i + Z.of_nat (length t) /\ nth_error t (Z.to_nat (j - i)) = Some o /\ p o = true /\ (forall k o', (k < Z.to_nat (j - i))%nat -> nth_error t k = Some o' -> p o' = false) | None => find p t = None end.
Proof.
  induction t as [|o t IH]; intros i; cbn [lookup find]; [reflexivity|]. destruct (p o) eqn:P.
  - split; [reflexivity|]. split; [cbn [length]; lia|]. rewrite Z.sub_diag. split; [reflexivity|]. split; [exact P|]. intros k o' Hk. cbn in Hk. lia.
  - specialize (IH (i + 1)). destruct (lookup p (i + 1) t) as [(o', j)|]; [|exact IH]. destruct IH as (F & J & N & P' & B). split; [exact F|]. split; [cbn [length]; lia|]. replace (Z.to_nat (j - i)) with (S (Z.to_nat (j - (i + 1)))) by lia. split; [exact N|]. split; [exact P'|].
    intros [|k] o'' Hk Hn; cbn in Hn; [injection Hn as <-; exact P|]. apply (B k o''); [lia|exact Hn].
Qed.
Definition obj_index (table : list object) (e : entry) : Z := snd (get_object_description table (pointer e)).
Definition trg_index (table : list object) (e : entry) : Z := snd (get_trigger_name table (trigger e)).
Lemma object_name table p : or_else (fst (get_object_description table p)) NoReactor = reactor_name table p.
Proof. unfold get_object_description, reactor_name. pose proof (lookup_find (fun o => o_pointer o =? p) table 0) as H. destruct (lookup _ 0 table) as [(o, i)|]; [destruct H as (-> & _)|rewrite H]; reflexivity. Qed.
Lemma trigger_label table p : or_else (fst (get_trigger_name table p)) NoTrigger = trigger_name table p.
Proof. unfold get_trigger_name, trigger_name. pose proof (lookup_find (fun o => (o_trigger o =? p) && (o_type o =? trace_trigger)) table 0) as H. destruct (lookup _ 0 table) as [(o, i)|]; [destruct H as (-> & _)|rewrite H]; reflexivity. Qed.
Lemma obj_nonneg table e : 0 <= obj_index table e.
Proof. unfold obj_index, get_object_description. pose proof (lookup_find (fun o => o_pointer o =? pointer e) table 0) as H. destruct (lookup _ 0 table) as [(o, i)|]; cbn [snd]; lia. Qed.
Lemma trg_nonneg table e : 0 <= trg_index table e.
Proof. unfold trg_index, get_trigger_name. pose proof (lookup_find (fun o => (o_trigger o =? trigger e) && (o_type o =? trace_trigger)) table 0) as H. destruct (lookup _ 0 table) as [(o, i)|]; cbn [snd]; lia. Qed.

(** *** The effect of one record on one slot *)
Definition value_step (start v : Z) (r : rstats) : rstats :=
  mkR (r_occ r + 1) start (r_total r + v) (if r_max r <? v then v else r_max r) (if (v <? r_min r) || (r_min r =? 0) then v else r_min r).
Definition time_step (r : rstats) (e : entry) : rstats :=
  if starts e then mkR (r_occ r) (physical_time e) (r_total r) (r_max r) (r_min r) else value_step 0 (physical_time e - r_start r) r.
Definition windex (e : entry) : Z := src_id e * 2 + (if is_advancing e then 1 else 0).
Definition is_wait (e : entry) : bool := is_waiting e || is_advancing e.
(** -1: none *)
Definition target (table : list object) (e : entry) : Z :=
  if is_reaction e then if (dst_id e <? 64) && (0 <=? dst_id e) then 54 + obj_index table e else -1
  else if event_type e =? schedule_called then 54 + trg_index table e
  else if is_user e then 54 + obj_index table e
  else if is_wait e then if (0 <=? windex e) && (windex e <? 64) then 54 + Z.of_nat (length table) + windex e else -1
  else -1.
Definition special (table : list object) (s : stats) (e : entry) : stats :=
  let k := event_type e in
  if is_reaction e then mkS k (reactor_name table (pointer e)) (s_occ s + 1) (if s_seen s <=? dst_id e then dst_id e + 1 else s_seen s) (upd (s_reactions s) (dst_id e) (time_step (s_reactions s (dst_id e)) e))
  else if k =? schedule_called then mkS k (trigger_name table (trigger e)) (s_occ s + 1) (s_seen s) (upd (s_reactions s) 0 (s_reactions s 0))
  else if k =? user_event then mkS k (reactor_name table (pointer e)) (s_occ s + 1) (s_seen s) (upd (s_reactions s) 0 (s_reactions s 0))
  else if k =? user_value then mkS k (reactor_name table (pointer e)) (s_occ s + 1) (s_seen s) (upd (s_reactions s) 0 (value_step (r_start (s_reactions s 0)) (extra_delay e) (s_reactions s 0)))
  else mkS k (s_label s) (s_occ s + 1) (if s_seen s <=? windex e then windex e else s_seen s) (upd (s_reactions s) (windex e) (time_step (s_reactions s (windex e)) e)).

Lemma upd_same {A} (f : Z -> A) i a : upd f i a i = a.
Proof. unfold upd. rewrite Z.eqb_refl. reflexivity. Qed.
Lemma upd_other {A} (f : Z -> A) i j a : j <> i -> upd f i a j = f j.
Proof. intros H. unfold upd. destruct (Z.eqb_spec j i); [contradiction|reflexivity]. Qed.

Lemma alloc_facts c i : rows (alloc c i) = rows c /\ latest (alloc c i) = latest c /\ (forall j, slot (alloc c i) j = slot c j) /\ (forall j, j <> i -> slots (alloc c i) j = slots c j).
Proof.
  unfold alloc. destruct (slots c i) eqn:Hi; [auto|]. cbn. split; [reflexivity|]. split; [reflexivity|]. split.
  - intros j. unfold slot. cbn. unfold upd. destruct (Z.eqb_spec j i); [subst j; rewrite Hi; reflexivity|reflexivity].
  - intros j Hj. apply upd_other. exact Hj.
Qed.
Lemma store_facts c i ev l seen j s r c' : store c i ev l seen j s r = Ok c' ->
  fits32 (s_occ s + 1) = true /\ rows c' = rows c /\ latest c' = latest c /\ slot c' i = mkS ev l (s_occ s + 1) seen (upd (s_reactions s) j r) /\ (forall m, m <> i -> slots c' m = slots c m).
Proof.
  unfold store. destruct (fits32 (s_occ s + 1)) eqn:F; [|discriminate]. intros E. injection E as <-. cbn. split; [reflexivity|]. split; [reflexivity|]. split; [reflexivity|]. split.
  - unfold slot. cbn. rewrite upd_same. reflexivity.
  - intros m Hm. apply upd_other. exact Hm.
Qed.
Lemma add_value_facts r st v r' : add_value r st v = Ok r' -> r' = value_step st v r.
Proof. unfold add_value. destruct (_ && _); [|discriminate]. intros E. injection E as <-. reflexivity. Qed.
Lemma start_or_end_facts b r e r' : start_or_end b r (physical_time e) = Ok r' -> b = starts e -> r' = time_step r e.
Proof.
  unfold start_or_end, time_step. intros E ->. destruct (starts e); [injection E as <-; reflexivity|]. destruct (fits64 _); [|discriminate]. apply add_value_facts. exact E.
Qed.
Lemma kinds e : 0 <= event_type e ->
  (is_reaction e = true -> event_type e <> 3 /\ is_user e = false /\ is_wait e = false /\ starts e = (event_type e =? reaction_starts)) /\
  (event_type e = 3 -> is_reaction e = false /\ is_user e = false /\ is_wait e = false) /\
  (is_user e = true -> is_reaction e = false /\ event_type e <> 3 /\ is_wait e = false) /\
  (is_wait e = true -> is_reaction e = false /\ event_type e <> 3 /\ is_user e = false /\ starts e = ((event_type e =? worker_wait_starts) || (event_type e =? scheduler_advancing_time_starts))).
Proof.
  intros H. unfold is_reaction, is_user, is_wait, is_waiting, is_advancing, starts, reaction_starts, reaction_ends, schedule_called, user_event, user_value, worker_wait_starts, worker_wait_ends, scheduler_advancing_time_starts, scheduler_advancing_time_ends.
  repeat split; intros; repeat match goal with |- context [?a =? ?b] => destruct (Z.eqb_spec a b); try (exfalso; lia) | H : context [?a =? ?b] |- _ => destruct (Z.eqb_spec a b); try (exfalso; lia) end; try reflexivity; try discriminate; try lia.
Qed.

Definition moved (table : list object) (e : entry) (c c' : conv) : Prop :=
  rows c' = rows c /\ latest c' = latest c /\ (forall i, 54 <= i -> slot c' i = if target table e =? i then special table (slot c i) e else slot c i) /\ (forall k, 0 <= k < 54 -> slots c' k = slots c k).
Lemma moved_at table e c c' i s : rows c' = rows c -> latest c' = latest c -> slot c' i = s -> (forall m, m <> i -> slots c' m = slots c m) -> target table e = i -> 54 <= i -> special table (slot c i) e = s -> moved table e c c'.
Proof.
  intros R L S0 O Ti Hi Sp. split; [exact R|]. split; [exact L|]. split.
  - intros j Hj. rewrite Ti. destruct (Z.eqb_spec i j) as [Ej|Ne]; [subst j; congruence|]. unfold slot. rewrite O by congruence. reflexivity.
  - intros k Hk. apply O. lia.
Qed.
Lemma moved_not table e c : target table e = -1 -> moved table e c c.
Proof. intros Ti. split; [reflexivity|]. split; [reflexivity|]. split; [|reflexivity]. intros i Hi. rewrite Ti. destruct (Z.eqb_spec (-1) i); [lia|reflexivity]. Qed.

Lemma special_facts table e c c' :
  0 <= event_type e < 54 ->
  count_special (Z.of_nat (length table)) e (obj_index table e) (trg_index table e) (reactor_name table (pointer e)) (trigger_name table (trigger e)) c = Ok c' ->
  moved table e c c'.
Proof.
  intros K E. destruct (kinds e ltac:(lia)) as (K1 & K2 & K3 & K4).
  pose proof (obj_nonneg table e) as Ho. pose proof (trg_nonneg table e) as Ht. unfold count_special in E. cbn zeta in E.
  change ((event_type e =? reaction_starts) || (event_type e =? reaction_ends)) with (is_reaction e) in E.
  change MAX_NUM_REACTIONS with 64 in E. change NUM_EVENT_TYPES with 54 in E. change (MAX_NUM_WORKERS * 2) with 128 in E.
  destruct (is_reaction e) eqn:R.
  { destruct (K1 eq_refl) as (_ & _ & _ & St). destruct (Z.leb_spec 64 (dst_id e)) as [Hd|Hd].
    - injection E as <-. apply moved_not. unfold target. rewrite R. replace (dst_id e <? 64) with false by (symmetry; apply Z.ltb_ge; lia). reflexivity.
    - destruct (Z.ltb_spec (dst_id e) 0) as [Hn|Hn]; [discriminate|]. destruct (start_or_end _ _ _) as [r|] eqn:Er; [|discriminate].
      apply start_or_end_facts in Er; [|symmetry; exact St]. apply store_facts in E. destruct E as (_ & E1 & E2 & E3 & E4).
      eapply moved_at; [exact E1|exact E2|exact E3|exact E4| |lia|].
      + unfold target. rewrite R. replace (dst_id e <? 64) with true by (symmetry; apply Z.ltb_lt; lia). replace (0 <=? dst_id e) with true by (symmetry; apply Z.leb_le; lia). reflexivity.
      + unfold special. rewrite R, Er. reflexivity. }
  destruct (Z.eqb_spec (event_type e) schedule_called) as [S3|S3].
  { replace (trg_index table e <? 0) with false in E by (symmetry; apply Z.ltb_ge; lia). apply store_facts in E. destruct E as (_ & E1 & E2 & E3 & E4).
    eapply moved_at; [exact E1|exact E2|exact E3|exact E4| |lia|].
    - unfold target. rewrite R, S3. reflexivity.
    - unfold special. rewrite R, S3. reflexivity. }
  destruct (Z.eqb_spec (event_type e) user_event) as [S4|S4].
  { apply store_facts in E. destruct E as (_ & E1 & E2 & E3 & E4). eapply moved_at; [exact E1|exact E2|exact E3|exact E4| |lia|].
    - unfold target, is_user. rewrite R, S4. reflexivity.
    - unfold special. rewrite R, S4. reflexivity. }
  destruct (Z.eqb_spec (event_type e) user_value) as [S5|S5].
  { destruct (add_value _ _ _) as [r|] eqn:Er; [|discriminate]. apply add_value_facts in Er. apply store_facts in E. destruct E as (_ & E1 & E2 & E3 & E4). eapply moved_at; [exact E1|exact E2|exact E3|exact E4| |lia|].
    - unfold target, is_user. rewrite R, S5. reflexivity.
    - unfold special. rewrite R, S5, Er. reflexivity. }
  assert (NU : is_user e = false) by (unfold is_user; destruct (Z.eqb_spec (event_type e) user_event); [contradiction|]; destruct (Z.eqb_spec (event_type e) user_value); [contradiction|reflexivity]).
  assert (NS : (event_type e =? schedule_called) = false) by (apply Z.eqb_neq; exact S3).
  assert (N4 : (event_type e =? user_event) = false) by (apply Z.eqb_neq; exact S4).
  assert (N5 : (event_type e =? user_value) = false) by (apply Z.eqb_neq; exact S5).
  change ((event_type e =? scheduler_advancing_time_starts) || (event_type e =? scheduler_advancing_time_ends)) with (is_advancing e) in E.
  assert (Wb : (event_type e =? worker_wait_starts) || (event_type e =? worker_wait_ends) || (event_type e =? scheduler_advancing_time_starts) || (event_type e =? scheduler_advancing_time_ends) = is_wait e).
  { unfold is_wait, is_waiting, is_advancing. rewrite !orb_assoc. reflexivity. }
  rewrite Wb in E. change (src_id e * 2 + (if is_advancing e then 1 else 0)) with (windex e) in E.
  destruct (is_wait e) eqn:W.
  2:{ injection E as <-. apply moved_not. unfold target. rewrite R, NS, NU, W. reflexivity. }
  destruct (K4 eq_refl) as (_ & _ & _ & St). destruct (_ || _) eqn:F1 in E; [discriminate|].
  destruct (Z.leb_spec (54 + Z.of_nat (length table) + 128) (Z.of_nat (length table) + windex e)) as [Hw|Hw].
  - injection E as <-. apply moved_not. unfold target. rewrite R, NS, NU, W. replace (windex e <? 64) with false by (symmetry; apply Z.ltb_ge; lia). rewrite andb_false_r. reflexivity.
  - destruct (Z.ltb_spec (windex e) 0) as [Hn|Hn]; [discriminate|]. destruct (Z.leb_spec 64 (windex e)) as [Hm|Hm]; [discriminate|]. cbn [orb] in E.
    destruct (start_or_end _ _ _) as [r|] eqn:Er; [|discriminate]. apply start_or_end_facts in Er; [|symmetry; exact St]. apply store_facts in E. destruct E as (_ & E1 & E2 & E3 & E4).
    eapply moved_at; [exact E1|exact E2|exact E3|exact E4| |lia|].
    + unfold target. rewrite R, NS, NU, W. replace (0 <=? windex e) with true by (symmetry; apply Z.leb_le; lia). replace (windex e <? 64) with true by (symmetry; apply Z.ltb_lt; lia). reflexivity.
    + unfold special. rewrite R, NS, N4, N5, Er. reflexivity.
Qed.

Definition counted (k : Z) (s : stats) : stats := mkS k (EventName k) (s_occ s + 1) (s_seen s) (s_reactions s).
Definition raw_row (table : list object) (start : Z) (e : entry) : row :=
  mkRow (event_type e) (reactor_name table (pointer e)) (src_id e) (dst_id e) (logical_time e - start) (to_signed 32 (microstep e)) (physical_time e - start) (trigger_name table (trigger e)) (extra_delay e).

Lemma one table start from until c e c' : convert_one table start from until c e = Ok c' ->
  if in_window start from until e then
    0 <= event_type e < 54 /\ rows c' = rows c ++ [raw_row table start e] /\ latest c' = Z.max (latest c) (physical_time e) /\
    (forall i, 54 <= i -> slot c' i = if target table e =? i then special table (slot c i) e else slot c i) /\
    (forall k, 0 <= k < 54 -> slots c' k = if event_type e =? k then Some (counted k (slot c k)) else slots c k)
  else c' = c.
Proof.
  unfold convert_one. pose proof (object_name table (pointer e)) as On. pose proof (trigger_label table (trigger e)) as Tn. pose proof (obj_nonneg table e) as Ho. pose proof (trg_nonneg table e) as Ht. unfold obj_index in Ho. unfold trg_index in Ht.
  destruct (get_object_description table (pointer e)) as (name, obj) eqn:Eo. destruct (get_trigger_name table (trigger e)) as (tname, trg) eqn:Et. cbn [fst snd] in *.
  cbn zeta. destruct (negb (fits64 (logical_time e - start))); [discriminate|].
  change ((from <=? logical_time e - start) && (logical_time e - start <? until)) with (in_window start from until e).
  destruct (in_window start from until e); [|intros E; injection E as <-; reflexivity].
  destruct (_ || _) eqn:F1; [discriminate|]. apply orb_false_iff in F1. destruct F1 as (F1 & _). apply orb_false_iff in F1. destruct F1 as (F1 & F2). apply Z.ltb_ge in F1. apply Z.leb_gt in F2. change NUM_EVENT_TYPES with 54 in *.
  rewrite On, Tn.
  set (c1 := mkConv _ _ _). destruct (alloc_facts c1 (54 + obj)) as (A1 & A2 & A3 & A4). destruct (alloc_facts (alloc c1 (54 + obj)) (54 + trg)) as (B1 & B2 & B3 & B4).
  unfold count_event. destruct (fits32 _); [|discriminate]. set (c2 := mkConv _ _ _). intros E.
  assert (M : moved table e c2 c') by (apply special_facts; [lia|]; unfold obj_index, trg_index; rewrite Eo, Et; exact E). destruct M as (M1 & M2 & M3 & M4).
  split; [lia|]. split; [rewrite M1; unfold c2; cbn [rows]; rewrite B1, A1; reflexivity|].
  split; [rewrite M2; unfold c2; cbn [latest]; rewrite B2, A2; unfold c1; cbn [latest]; destruct (Z.ltb_spec (latest c) (physical_time e)); lia|].
  assert (S2 : forall i, 54 <= i -> slot c2 i = slot c i).
  { intros i Hi. unfold slot at 1. unfold c2. cbn [slots]. rewrite upd_other by lia. fold (slot (alloc (alloc c1 (54 + obj)) (54 + trg)) i). rewrite B3, A3. reflexivity. }
  split.
  - intros i Hi. rewrite M3, S2 by exact Hi. reflexivity.
  - intros k Hk. rewrite M4 by exact Hk. unfold c2. cbn [slots]. unfold upd. rewrite Z.eqb_sym. destruct (Z.eqb_spec (event_type e) k) as [Ek|Ne].
    + rewrite Ek. unfold counted. rewrite B3, A3. reflexivity.
    + rewrite B4, A4 by lia. reflexivity.
Qed.

(** *** The effect of all records *)
Section Table.
Variables (table : list object) (start from until : Z).
Notation conv_all := (convert table start from until).
Notation window := (in_window start from until).

Lemma convert_facts l : forall c c', conv_all c l = Ok c' ->
  Forall (fun e => 0 <= event_type e < 54) (filter window l) /\
  rows c' = rows c ++ map (raw_row table start) (filter window l) /\
  latest c' = fold_left Z.max (map physical_time (filter window l)) (latest c) /\
  (forall i, 54 <= i -> slot c' i = fold_left (special table) (filter (fun e => target table e =? i) (filter window l)) (slot c i)) /\
  (forall k, 0 <= k < 54 -> slots c' k = match filter (fun e => event_type e =? k) (filter window l) with [] => slots c k | es => Some (fold_left (fun s _ => counted k s) es (slot c k)) end).
Proof.
  induction l as [|e l IH]; intros c c' E; cbn [convert] in E.
  { injection E as <-. cbn. rewrite app_nil_r. repeat split; auto. }
  destruct (convert_one table start from until c e) as [c1|] eqn:E1; [|discriminate]. apply one in E1. specialize (IH c1 c' E). cbn [filter]. destruct (window e) eqn:W; [|subst c1; exact IH].
  destruct E1 as (K & R & L & S1 & S2). destruct IH as (I0 & I1 & I2 & I3 & I4). split; [constructor; assumption|]. split; [rewrite I1, R, <- app_assoc; reflexivity|]. split; [rewrite I2, L; reflexivity|]. split.
  - intros i Hi. rewrite I3, S1 by exact Hi. cbn [filter]. destruct (target table e =? i); reflexivity.
  - intros k Hk. rewrite I4 by exact Hk. cbn [filter]. unfold slot. rewrite (S2 k Hk). destruct (event_type e =? k) eqn:Ek; [|reflexivity].
    destruct (filter (fun e0 => event_type e0 =? k) (filter window l)); [reflexivity|]. cbn [fold_left]. reflexivity.
Qed.
End Table.

(** *** Measured values *)
Definition agrees (r : rstats) (ds : list Z) (open : option Z) : Prop :=
  r_occ r = number ds /\ r_total r = total ds /\ r_max r = largest ds /\ r_min r = smallest ds /\ Forall (fun v => 0 < v) ds /\ (forall s, open = Some s -> r_start r = s).
Lemma number_snoc {A} (ds : list A) v : number (ds ++ [v]) = number ds + 1.
Proof. unfold number. rewrite app_length. cbn [length]. lia. Qed.
Lemma total_snoc ds v : total (ds ++ [v]) = total ds + v.
Proof. induction ds as [|x ds IH]; cbn [app]; unfold total in *; cbn [fold_right] in *; [lia|]. rewrite IH. lia. Qed.
Lemma largest_snoc ds v : largest (ds ++ [v]) = match ds with [] => v | _ => Z.max (largest ds) v end.
Proof. destruct ds as [|x ds]; [reflexivity|]. cbn [app largest]. rewrite fold_left_app. reflexivity. Qed.
Lemma smallest_snoc ds v : smallest (ds ++ [v]) = match ds with [] => v | _ => Z.min (smallest ds) v end.
Proof. destruct ds as [|x ds]; [reflexivity|]. cbn [app smallest]. rewrite fold_left_app. reflexivity. Qed.
Lemma fold_min_in ds : forall x, Forall (fun v => 0 < v) (x :: ds) -> 0 < fold_left Z.min ds x.
Proof. induction ds as [|y ds IH]; intros x H; inversion H as [|? ? Hx H']; subst; cbn [fold_left]; [exact Hx|]. inversion H' as [|? ? Hy H'']; subst. apply IH. constructor; [lia|exact H'']. Qed.
Lemma value_agrees r ds open st v : agrees r ds open -> 0 < v -> agrees (value_step st v r) (ds ++ [v]) (Some st).
Proof.
  intros (A1 & A2 & A3 & A4 & A5 & A6) Hv. unfold value_step. split; [cbn; rewrite A1, number_snoc; reflexivity|]. split; [cbn; rewrite A2, total_snoc; reflexivity|].
  split; [|split; [|split]].
  - cbn [r_max]. rewrite A3, largest_snoc. destruct ds as [|x ds]; [cbn; destruct (Z.ltb_spec 0 v); lia|]. destruct (Z.ltb_spec (largest (x :: ds)) v); lia.
  - cbn [r_min]. rewrite A4, smallest_snoc. destruct ds as [|x ds]; [cbn [smallest]; rewrite Z.eqb_refl, orb_true_r; reflexivity|].
    pose proof (fold_min_in ds x A5) as Hp. fold (smallest (x :: ds)) in Hp. destruct (Z.ltb_spec v (smallest (x :: ds))), (Z.eqb_spec (smallest (x :: ds)) 0); cbn [orb]; lia.
  - apply Forall_app. split; [exact A5|]. constructor; [exact Hv|constructor].
  - intros s E. injection E as <-. reflexivity.
Qed.
Lemma times_agree l : forall r ds open, agrees r ds open -> paired open l -> agrees (fold_left time_step l r) (ds ++ durations open l) (pending open l).
Proof.
  induction l as [|e l IH]; intros r ds open A P; cbn [fold_left durations pending paired] in *; [rewrite app_nil_r; exact A|]. destruct open as [s|].
  - destruct P as (P1 & P2 & P3). rewrite P1. replace (ds ++ (physical_time e - s) :: durations None l) with ((ds ++ [physical_time e - s]) ++ durations None l) by (rewrite <- app_assoc; reflexivity).
    apply IH; [|exact P3]. unfold time_step. rewrite P1. assert (Es : r_start r = s) by (apply A; reflexivity). rewrite Es. destruct (value_agrees r ds (Some s) 0 (physical_time e - s) A ltac:(lia)) as (B1 & B2 & B3 & B4 & B5 & _).
    repeat split; try assumption. discriminate.
  - destruct P as (P1 & P2). rewrite P1. apply IH; [|exact P2]. unfold time_step. rewrite P1. destruct A as (A1 & A2 & A3 & A4 & A5 & A6). repeat split; try assumption. cbn. intros s E. injection E as <-. reflexivity.
Qed.
Lemma agrees0 open : open = None -> agrees r0 [] open.
Proof. intros ->. repeat split; [constructor|discriminate]. Qed.
Lemma times_agree0 l : paired None l -> agrees (fold_left time_step l r0) (durations None l) (pending None l).
Proof. intros P. exact (times_agree l r0 [] None (agrees0 None eq_refl) P). Qed.
Definition value_of (r : rstats) (e : entry) : rstats := value_step (r_start r) (extra_delay e) r.
Lemma values_agree l : forall r ds, agrees r ds None -> (forall e, In e l -> 0 < extra_delay e) -> agrees (fold_left value_of l r) (ds ++ map extra_delay l) None.
Proof.
  induction l as [|e l IH]; intros r ds A P; cbn [fold_left map]; [rewrite app_nil_r; exact A|]. replace (ds ++ extra_delay e :: map extra_delay l) with ((ds ++ [extra_delay e]) ++ map extra_delay l) by (rewrite <- app_assoc; reflexivity).
  apply IH; [|intros x Hx; apply P; right; exact Hx]. destruct (value_agrees r ds None (r_start r) (extra_delay e) A (P e (or_introl eq_refl))) as (B1 & B2 & B3 & B4 & B5 & _). repeat split; try assumption. discriminate.
Qed.
Lemma total_pos ds : Forall (fun v => 0 < v) ds -> 0 <= total ds.
Proof. induction 1; unfold total in *; cbn [fold_right] in *; lia. Qed.
Lemma agrees_line f r ds open : agrees r ds open -> (if 0 <? r_occ r then [f (r_occ r) (r_total r) (Z.quot (r_total r) (r_occ r)) (r_max r) (r_min r)] else []) = measured f ds.
Proof.
  intros (A1 & A2 & A3 & A4 & A5 & _). rewrite A1, A2, A3, A4. unfold measured. destruct ds as [|x ds]; [reflexivity|]. assert (N : 0 < number (x :: ds)) by (unfold number; cbn [length]; lia).
  replace (0 <? number (x :: ds)) with true by (symmetry; apply Z.ltb_lt; exact N). rewrite Z.quot_div_nonneg; [reflexivity|apply total_pos; exact A5|exact N].
Qed.

(** *** Slots of one kind *)
Section Kinds.
Variable table : list object.
Notation spec_all := (fold_left (special table)).

Lemma reaction_slot nm l : forall s, Forall (fun e => is_reaction e = true /\ reactor_name table (pointer e) = nm /\ 0 <= dst_id e < 64) l ->
  (s_event s = 0 \/ s_event s = 1) -> (s_label s = nm \/ s = s0) -> 0 <= s_seen s <= 64 -> (forall d, s_seen s <= d -> s_reactions s d = r0) ->
  let s' := spec_all l s in
  (s_event s' = 0 \/ s_event s' = 1) /\ (s_label s' = nm \/ (l = [] /\ s' = s)) /\ 0 <= s_seen s' <= 64 /\ (forall d, s_seen s' <= d -> s_reactions s' d = r0) /\
  (forall d, s_reactions s' d = fold_left time_step (filter (fun e => dst_id e =? d) l) (s_reactions s d)).
Proof.
  induction l as [|e l IH]; intros s F Hv Hl Hs Hr; cbn zeta; cbn [fold_left filter].
  { split; [exact Hv|]. split; [right; split; reflexivity|]. split; [exact Hs|]. split; [exact Hr|]. reflexivity. }
  inversion F as [|? ? (F1 & F2 & F3) F']; subst x l0. 
  assert (Ev : event_type e = 0 \/ event_type e = 1).
  { unfold is_reaction, reaction_starts, reaction_ends in F1. destruct (Z.eqb_spec (event_type e) 0); [auto|]. destruct (Z.eqb_spec (event_type e) 1); [auto|discriminate]. }
  set (s1 := special table s e). assert (S1 : s1 = mkS (event_type e) nm (s_occ s + 1) (if s_seen s <=? dst_id e then dst_id e + 1 else s_seen s) (upd (s_reactions s) (dst_id e) (time_step (s_reactions s (dst_id e)) e))).
  { unfold s1, special. rewrite F1, F2. reflexivity. }
  assert (Sn : 0 <= s_seen s1 <= 64 /\ s_seen s <= s_seen s1 /\ dst_id e < s_seen s1) by (rewrite S1; cbn [s_seen]; destruct (Z.leb_spec (s_seen s) (dst_id e)); lia).
  destruct (IH s1 F') as (I1 & I2 & I3 & I4 & I5).
  - rewrite S1. exact Ev.
  - left. rewrite S1. reflexivity.
  - lia.
  - intros d Hd. rewrite S1. cbn [s_reactions]. rewrite upd_other by lia. apply Hr. lia.
  - split; [exact I1|]. split; [destruct I2 as [I2|(_ & I2)]; [left; exact I2|left; rewrite I2, S1; reflexivity]|]. split; [exact I3|]. split; [exact I4|].
    intros d. rewrite I5, S1. cbn [s_reactions]. unfold upd. rewrite Z.eqb_sym. destruct (Z.eqb_spec (dst_id e) d) as [<-|]; reflexivity.
Qed.

Lemma schedule_slot nm l : forall s, Forall (fun e => event_type e = 3 /\ trigger_name table (trigger e) = nm) l ->
  let s' := spec_all l s in
  s_seen s' = s_seen s /\ s_occ s' = s_occ s + number l /\ (l <> [] -> s_event s' = 3 /\ s_label s' = nm) /\ (l = [] -> s' = s).
Proof.
  induction l as [|e l IH]; intros s F; cbn zeta; cbn [fold_left].
  { split; [reflexivity|]. split; [unfold number; cbn; lia|]. split; [congruence|reflexivity]. }
  inversion F as [|? ? (F1 & F2) F']; subst x l0. destruct (kinds e ltac:(lia)) as (_ & K2 & _). destruct (K2 F1) as (NR & _).
  assert (S1 : special table s e = mkS 3 nm (s_occ s + 1) (s_seen s) (upd (s_reactions s) 0 (s_reactions s 0))) by (unfold special; rewrite NR, F1, F2; reflexivity).
  destruct (IH (special table s e) F') as (I1 & I2 & I3 & I4). split; [rewrite I1, S1; reflexivity|]. split; [rewrite I2, S1; unfold number; cbn [s_occ length]; lia|].
  split; [|discriminate]. intros _. destruct l as [|e' l]; [rewrite (I4 eq_refl), S1; split; reflexivity|apply I3; discriminate].
Qed.

Lemma user_slot nm l : forall s, Forall (fun e => is_user e = true /\ reactor_name table (pointer e) = nm) l ->
  (forall e1 e2, In e1 l -> In e2 l -> event_type e1 = event_type e2) ->
  let s' := spec_all l s in
  s_seen s' = s_seen s /\ s_occ s' = s_occ s + number l /\ (l <> [] -> s_label s' = nm) /\ (forall e, In e l -> s_event s' = event_type e) /\ (l = [] -> s' = s) /\
  s_reactions s' 0 = fold_left value_of (filter (fun e => event_type e =? user_value) l) (s_reactions s 0).
Proof.
  induction l as [|e l IH]; intros s F U; cbn zeta; cbn [fold_left filter].
  { split; [reflexivity|]. split; [unfold number; cbn; lia|]. split; [congruence|]. split; [intros e []|]. split; reflexivity. }
  inversion F as [|? ? (F1 & F2) F']; subst x l0.
  assert (NR : is_reaction e = false /\ (event_type e =? schedule_called) = false).
  { unfold is_user, user_event, user_value, is_reaction, reaction_starts, reaction_ends, schedule_called in *. destruct (Z.eqb_spec (event_type e) 4) as [->|]; [split; reflexivity|]. destruct (Z.eqb_spec (event_type e) 5) as [->|]; [split; reflexivity|discriminate]. }
  destruct NR as (NR & NS).
  destruct (IH (special table s e) F') as (I1 & I2 & I3 & I4 & I5 & I6); [intros e1 e2 H1 H2; apply U; right; assumption|].
  assert (S1 : s_seen (special table s e) = s_seen s /\ s_occ (special table s e) = s_occ s + 1 /\ s_label (special table s e) = nm /\ s_event (special table s e) = event_type e /\
    s_reactions (special table s e) 0 = if event_type e =? user_value then value_of (s_reactions s 0) e else s_reactions s 0).
  { unfold special. rewrite NR, NS. unfold is_user in F1. destruct (Z.eqb_spec (event_type e) user_event) as [E4|N4].
    - cbn [s_seen s_occ s_label s_event s_reactions]. rewrite upd_same, E4. repeat split; assumption.
    - cbn [orb] in F1. rewrite F1. cbn [s_seen s_occ s_label s_event s_reactions]. rewrite upd_same. repeat split; assumption. }
  destruct S1 as (S1 & S2 & S3 & S4 & S5). split; [congruence|]. split; [rewrite I2, S2; unfold number; cbn [length]; lia|].
  split; [intros _; destruct l as [|e' l]; [rewrite (I5 eq_refl); exact S3|apply I3; discriminate]|].
  split; [|split; [discriminate|]].
  - intros x Hx. rewrite (U x e Hx (or_introl eq_refl)). destruct l as [|e' l]; [rewrite (I5 eq_refl); exact S4|]. rewrite (I4 e' (or_introl eq_refl)). apply U; [right; left; reflexivity|left; reflexivity].
  - rewrite I6, S5. destruct (event_type e =? user_value); reflexivity.
Qed.

Definition ends_of (adv : bool) : Z := if adv then 9 else 7.
Lemma wait_slot idx adv l : forall s, Forall (fun e => is_wait e = true /\ windex e = idx /\ is_advancing e = adv) l -> 0 <= idx ->
  (s_seen s = 0 \/ s_seen s = idx) -> (forall j, j <> idx -> s_reactions s j = r0) ->
  let s' := spec_all l s in
  (s_seen s' = 0 \/ s_seen s' = idx) /\ (forall j, j <> idx -> s_reactions s' j = r0) /\ (l <> [] -> s_seen s' = idx) /\ (l = [] -> s' = s) /\
  s_reactions s' idx = fold_left time_step l (s_reactions s idx) /\
  (l <> [] -> 6 <= s_event s' <= 9) /\ (l <> [] -> forall o, pending o l = None -> s_event s' = ends_of adv).
Proof.
  induction l as [|e l IH]; intros s F Hi Hs Hr; cbn zeta; cbn [fold_left pending].
  { split; [exact Hs|]. split; [exact Hr|]. split; [congruence|]. split; [reflexivity|]. split; [reflexivity|]. split; congruence. }
  inversion F as [|? ? (F1 & F2 & F3) F']; subst x l0.
  assert (Ev : event_type e = 6 \/ event_type e = 7 \/ event_type e = 8 \/ event_type e = 9).
  { unfold is_wait, is_waiting, is_advancing, worker_wait_starts, worker_wait_ends, scheduler_advancing_time_starts, scheduler_advancing_time_ends in F1.
    destruct (Z.eqb_spec (event_type e) 6); [auto|]. destruct (Z.eqb_spec (event_type e) 7); [auto|]. destruct (Z.eqb_spec (event_type e) 8); [auto|]. destruct (Z.eqb_spec (event_type e) 9); [auto|discriminate]. }
  assert (S1 : special table s e = mkS (event_type e) (s_label s) (s_occ s + 1) (if s_seen s <=? idx then idx else s_seen s) (upd (s_reactions s) idx (time_step (s_reactions s idx) e))).
  { unfold special, is_reaction, reaction_starts, reaction_ends, schedule_called, user_event, user_value. rewrite F2. destruct Ev as [->|[->|[->| ->]]]; reflexivity. }
  assert (Sn : s_seen (special table s e) = idx) by (rewrite S1; cbn [s_seen]; destruct (Z.leb_spec (s_seen s) idx); lia).
  destruct (IH (special table s e) F' Hi) as (I1 & I2 & I3 & I4 & I5 & I6 & I7); [right; exact Sn|intros j Hj; rewrite S1; cbn [s_reactions]; rewrite upd_other by exact Hj; apply Hr; exact Hj|].
  split; [exact I1|]. split; [exact I2|]. split; [intros _; destruct l; [rewrite (I4 eq_refl); exact Sn|apply I3; discriminate]|]. split; [discriminate|].
  split; [rewrite I5, S1; cbn [s_reactions]; rewrite upd_same; reflexivity|]. split.
  - intros _. destruct l; [rewrite (I4 eq_refl), S1; cbn [s_event]; lia|apply I6; discriminate].
  - intros _ o P. destruct l as [|e' l]; [|apply (I7 ltac:(discriminate) _ P)]. rewrite (I4 eq_refl), S1. cbn [s_event]. cbn [pending] in P. unfold starts, reaction_starts, worker_wait_starts, scheduler_advancing_time_starts in P. unfold is_advancing, scheduler_advancing_time_starts, scheduler_advancing_time_ends in F3. unfold ends_of.
    destruct Ev as [Ee|[Ee|[Ee|Ee]]]; rewrite Ee in *; cbn in P, F3; subst adv; try discriminate; reflexivity.
Qed.
End Kinds.

(** *** The summary *)
Section Main.
Variables (table : list object) (lw : list entry).
Hypothesis Tok : table_ok table.
Hypothesis Reg : Forall (registered table) lw.
Hypothesis Evs : Forall (fun e => 0 <= event_type e < 54) lw.

Lemma find_object i o : nth_error table i = Some o -> o_type o <> trace_trigger -> lookup (fun o' => o_pointer o' =? o_pointer o) 0 table = Some (o, Z.of_nat i).
Proof.
  intros N Ty. pose proof (lookup_find (fun o' => o_pointer o' =? o_pointer o) table 0) as H. destruct (lookup _ 0 table) as [(o', j)|].
  - destruct H as (_ & J & N' & P & B). rewrite Z.sub_0_r in *. apply Z.eqb_eq in P. destruct (lt_eq_lt_dec (Z.to_nat j) i) as [[L|Ej]|G].
    + destruct (Tok _ _ _ _ L N' N) as (T1 & _). elim Ty. apply T1. exact P.
    + rewrite Ej in N'. assert (o' = o) by congruence. subst o'. f_equal. f_equal. lia.
    + specialize (B i o G N). rewrite Z.eqb_refl in B. discriminate.
  - exfalso. pose proof (find_none _ _ H o (nth_error_In _ _ N)) as F. cbn in F. rewrite Z.eqb_refl in F. discriminate.
Qed.
Lemma find_trigger i o : nth_error table i = Some o -> o_type o = trace_trigger -> lookup (fun o' => (o_trigger o' =? o_trigger o) && (o_type o' =? trace_trigger)) 0 table = Some (o, Z.of_nat i).
Proof.
  intros N Ty. pose proof (lookup_find (fun o' => (o_trigger o' =? o_trigger o) && (o_type o' =? trace_trigger)) table 0) as H. destruct (lookup _ 0 table) as [(o', j)|].
  - destruct H as (_ & J & N' & P & B). rewrite Z.sub_0_r in *. apply andb_true_iff in P. destruct P as (P & P'). apply Z.eqb_eq in P, P'. destruct (lt_eq_lt_dec (Z.to_nat j) i) as [[L|Ej]|G].
    + destruct (Tok _ _ _ _ L N' N) as (_ & T1). elim (T1 P' Ty). exact P.
    + rewrite Ej in N'. assert (o' = o) by congruence. subst o'. f_equal. f_equal. lia.
    + specialize (B i o G N). cbn beta in B. rewrite Z.eqb_refl, Ty, Z.eqb_refl in B. discriminate.
  - exfalso. pose proof (find_none _ _ H o (nth_error_In _ _ N)) as F. cbn beta in F. rewrite Z.eqb_refl, Ty, Z.eqb_refl in F. discriminate.
Qed.
Lemma obj_at i o e : nth_error table i = Some o -> o_type o <> trace_trigger -> pointer e = o_pointer o -> obj_index table e = Z.of_nat i /\ reactor_name table (pointer e) = Named (o_description o).
Proof.
  intros N Ty P. rewrite <- object_name. unfold obj_index, get_object_description. rewrite P, (find_object i o N Ty). split; reflexivity.
Qed.
Lemma trg_at i o e : nth_error table i = Some o -> o_type o = trace_trigger -> trigger e = o_trigger o -> trg_index table e = Z.of_nat i /\ trigger_name table (trigger e) = Named (o_description o).
Proof.
  intros N Ty P. rewrite <- trigger_label. unfold trg_index, get_trigger_name. rewrite P, (find_trigger i o N Ty). split; reflexivity.
Qed.

(** Which records touch the slot of an object. *)
Definition touches (o : object) (e : entry) : bool :=
  if o_type o =? trace_reactor then is_reaction e && (pointer e =? o_pointer o) && ((dst_id e <? 64) && (0 <=? dst_id e))
  else if o_type o =? trace_trigger then of_schedule (o_trigger o) e
  else if o_type o =? trace_user then of_user (o_pointer o) e
  else false.
Lemma same_index i j (o o' : object) : nth_error table i = Some o -> nth_error table j = Some o' -> Z.of_nat i = Z.of_nat j -> o = o'.
Proof. intros A B C. assert (i = j) by lia. subst j. congruence. Qed.
Lemma index_lt i (o : object) : nth_error table i = Some o -> (i < length table)%nat.
Proof. intros H. apply nth_error_Some. congruence. Qed.
Lemma target_touches i o e : nth_error table i = Some o -> In e lw -> (target table e =? 54 + Z.of_nat i) = touches o e.
Proof.
  intros N He. rewrite Forall_forall in Reg, Evs. destruct (Reg e He) as (R1 & R2 & R3 & _). specialize (Evs e He). cbn beta in Evs. destruct (kinds e ltac:(lia)) as (K1 & K2 & K3 & K4).
  pose proof (index_lt i o N) as Hi. unfold target, touches, of_schedule, of_user.
  destruct (is_reaction e) eqn:IR.
  { destruct (K1 eq_refl) as (E3 & NU & _). replace (event_type e =? schedule_called) with false by (symmetry; apply Z.eqb_neq; exact E3). rewrite NU. cbn [andb].
    destruct (R1 eq_refl) as (o' & Ho & Ty & Po). apply In_nth_error in Ho. destruct Ho as (i' & N'). destruct (obj_at i' o' e N' ltac:(rewrite Ty; discriminate) (eq_sym Po)) as (O1 & _).
    destruct ((dst_id e <? 64) && (0 <=? dst_id e)).
    2:{ rewrite andb_false_r. destruct (Z.eqb_spec (-1) (54 + Z.of_nat i)); [lia|]. destruct (o_type o =? trace_reactor), (o_type o =? trace_trigger), (o_type o =? trace_user); reflexivity. }
    rewrite andb_true_r. destruct (Z.eqb_spec (54 + obj_index table e) (54 + Z.of_nat i)) as [Ei|Ni].
    - assert (o' = o) by (apply (same_index i' i); [assumption|assumption|lia]). subst o'. rewrite Ty, Z.eqb_refl, Po, Z.eqb_refl. reflexivity.
    - destruct (Z.eqb_spec (o_type o) trace_reactor) as [To|To].
      + destruct (Z.eqb_spec (pointer e) (o_pointer o)) as [Pe|]; [|reflexivity]. exfalso. destruct (obj_at i o e N ltac:(rewrite To; discriminate) Pe) as (O2 & _). lia.
      + destruct (o_type o =? trace_trigger), (o_type o =? trace_user); reflexivity. }
  destruct (Z.eqb_spec (event_type e) schedule_called) as [E3|E3].
  { destruct (K2 E3) as (_ & NU & _). rewrite NU. cbn [andb]. destruct (R2 E3) as (o' & Ho & Ty & Po). apply In_nth_error in Ho. destruct Ho as (i' & N'). destruct (trg_at i' o' e N' Ty (eq_sym Po)) as (O1 & _).
    destruct (Z.eqb_spec (54 + trg_index table e) (54 + Z.of_nat i)) as [Ei|Ni].
    - assert (o' = o) by (apply (same_index i' i); [assumption|assumption|lia]). subst o'. rewrite Ty, Po. cbn. rewrite Z.eqb_refl. reflexivity.
    - destruct (Z.eqb_spec (o_type o) trace_reactor) as [To|To]; [reflexivity|]. destruct (Z.eqb_spec (o_type o) trace_trigger) as [Tt|Tt].
      + destruct (Z.eqb_spec (trigger e) (o_trigger o)) as [Pe|]; [|reflexivity]. exfalso. destruct (trg_at i o e N Tt Pe) as (O2 & _). lia.
      + destruct (o_type o =? trace_user); reflexivity. }
  cbn [andb]. destruct (is_user e) eqn:IU.
  { cbn [andb]. destruct (R3 eq_refl) as (o' & Ho & Ty & Po). apply In_nth_error in Ho. destruct Ho as (i' & N'). destruct (obj_at i' o' e N' ltac:(rewrite Ty; discriminate) (eq_sym Po)) as (O1 & _).
    destruct (Z.eqb_spec (54 + obj_index table e) (54 + Z.of_nat i)) as [Ei|Ni].
    - assert (o' = o) by (apply (same_index i' i); [assumption|assumption|lia]). subst o'. rewrite Ty, Po. cbn. rewrite Z.eqb_refl. reflexivity.
    - destruct (Z.eqb_spec (o_type o) trace_reactor) as [To|To]; [reflexivity|]. destruct (Z.eqb_spec (o_type o) trace_trigger) as [Tt|Tt]; [reflexivity|]. destruct (Z.eqb_spec (o_type o) trace_user) as [Tu|Tu]; [|reflexivity].
      destruct (Z.eqb_spec (pointer e) (o_pointer o)) as [Pe|]; [|reflexivity]. exfalso. destruct (obj_at i o e N Tt Pe) as (O2 & _). lia. }
  cbn [andb]. assert (X : forall b, (if is_wait e then if (0 <=? windex e) && (windex e <? 64) then 54 + Z.of_nat (length table) + windex e else -1 else -1) = b -> b <> 54 + Z.of_nat i).
  { intros b <-. destruct (is_wait e); [|lia]. destruct (Z.leb_spec 0 (windex e)); [|cbn [andb]; lia]. destruct (windex e <? 64); cbn [andb]; lia. }
  specialize (X _ eq_refl). destruct (Z.eqb_spec (if is_wait e then if (0 <=? windex e) && (windex e <? 64) then 54 + Z.of_nat (length table) + windex e else -1 else -1) (54 + Z.of_nat i)) as [E|_]; [contradiction|].
  destruct (o_type o =? trace_reactor), (o_type o =? trace_trigger), (o_type o =? trace_user); reflexivity.
Qed.
Lemma target_worker w a e : In e lw -> 0 <= w < 32 -> (target table e =? 54 + Z.of_nat (length table) + (2 * w + if a : bool then 1 else 0)) = of_worker w a e.
Proof.
  intros He Hw. rewrite Forall_forall in Reg, Evs. destruct (Reg e He) as (R1 & R2 & R3 & _). specialize (Evs e He). cbn beta in Evs. destruct (kinds e ltac:(lia)) as (K1 & K2 & K3 & K4).
  assert (No : is_wait e = false -> of_worker w a e = false).
  { intros W. unfold is_wait in W. apply orb_false_iff in W. destruct W as (W1 & W2). unfold of_worker. rewrite W1, W2. destruct a; reflexivity. }
  assert (Hn : forall i, (i < length table)%nat -> (54 + Z.of_nat i =? 54 + Z.of_nat (length table) + (2 * w + (if a then 1 else 0))) = false).
  { intros i Hi. apply Z.eqb_neq. destruct a; lia. }
  unfold target. destruct (is_reaction e) eqn:IR.
  { destruct (K1 eq_refl) as (_ & _ & W & _). rewrite (No W). destruct (R1 eq_refl) as (o' & Ho & Ty & Po). apply In_nth_error in Ho. destruct Ho as (i' & N'). destruct (obj_at i' o' e N' ltac:(rewrite Ty; discriminate) (eq_sym Po)) as (O1 & _).
    destruct (_ && _); [rewrite O1; apply Hn; eapply index_lt; exact N'|]. apply Z.eqb_neq. destruct a; lia. }
  destruct (Z.eqb_spec (event_type e) schedule_called) as [E3|E3].
  { destruct (K2 E3) as (_ & _ & W). rewrite (No W). destruct (R2 E3) as (o' & Ho & Ty & Po). apply In_nth_error in Ho. destruct Ho as (i' & N'). destruct (trg_at i' o' e N' Ty (eq_sym Po)) as (O1 & _). rewrite O1. apply Hn. eapply index_lt. exact N'. }
  destruct (is_user e) eqn:IU.
  { destruct (K3 eq_refl) as (_ & _ & W). rewrite (No W). destruct (R3 eq_refl) as (o' & Ho & Ty & Po). apply In_nth_error in Ho. destruct Ho as (i' & N'). destruct (obj_at i' o' e N' ltac:(rewrite Ty; discriminate) (eq_sym Po)) as (O1 & _). rewrite O1. apply Hn. eapply index_lt. exact N'. }
  destruct (is_wait e) eqn:W; [|rewrite (No eq_refl); apply Z.eqb_neq; destruct a; lia].
  assert (Ex : is_waiting e = negb (is_advancing e)).
  { unfold is_wait, is_waiting, is_advancing, worker_wait_starts, worker_wait_ends, scheduler_advancing_time_starts, scheduler_advancing_time_ends in *. repeat match goal with |- context [?x =? ?y] => destruct (Z.eqb_spec x y); try (exfalso; lia) end; try reflexivity; try discriminate W. }
  unfold of_worker, windex. rewrite Ex. destruct a, (is_advancing e); cbn [negb andb]; destruct (Z.leb_spec 0 (src_id e * 2 + 1)), (Z.ltb_spec (src_id e * 2 + 1) 64), (Z.leb_spec 0 (src_id e * 2 + 0)), (Z.ltb_spec (src_id e * 2 + 0) 64), (Z.eqb_spec (src_id e) w); cbn [andb]; try (apply Z.eqb_eq; lia); try (apply Z.eqb_neq; lia); exfalso; lia.
Qed.
Lemma target_rest i e : In e lw -> 54 + Z.of_nat (length table) + 64 <= i -> (target table e =? i) = false.
Proof.
  intros He Hi. rewrite Forall_forall in Reg. destruct (Reg e He) as (R1 & R2 & R3 & _). apply Z.eqb_neq. unfold target. destruct (is_reaction e) eqn:IR.
  { destruct (R1 eq_refl) as (o' & Ho & Ty & Po). apply In_nth_error in Ho. destruct Ho as (i' & N'). destruct (obj_at i' o' e N' ltac:(rewrite Ty; discriminate) (eq_sym Po)) as (O1 & _). pose proof (index_lt _ _ N'). destruct (_ && _); lia. }
  destruct (Z.eqb_spec (event_type e) schedule_called) as [E3|E3].
  { destruct (R2 E3) as (o' & Ho & Ty & Po). apply In_nth_error in Ho. destruct Ho as (i' & N'). destruct (trg_at i' o' e N' Ty (eq_sym Po)) as (O1 & _). pose proof (index_lt _ _ N'). lia. }
  destruct (is_user e) eqn:IU.
  { destruct (R3 eq_refl) as (o' & Ho & Ty & Po). apply In_nth_error in Ho. destruct Ho as (i' & N'). destruct (obj_at i' o' e N' ltac:(rewrite Ty; discriminate) (eq_sym Po)) as (O1 & _). pose proof (index_lt _ _ N'). lia. }
  destruct (is_wait e); [|lia]. destruct (Z.leb_spec 0 (windex e)), (Z.ltb_spec (windex e) 64); cbn [andb]; lia.
Qed.

Hypothesis Wf : well_formed lw.

Lemma slot_filter i o : nth_error table i = Some o -> filter (fun e => target table e =? 54 + Z.of_nat i) lw = filter (touches o) lw.
Proof. intros N. apply filter_ext_in'. intros e He. apply target_touches; assumption. Qed.
Definition lines0 (s : stats) : Prop := reaction_lines s = [] /\ schedule_lines s = [] /\ user_lines s = [] /\ wait_lines s = [].
Lemma s0_lines : lines0 s0.
Proof. repeat split. Qed.
Lemma no_reactions s : s_seen s = 0 -> reaction_lines s = [].
Proof. intros H. unfold reaction_lines. rewrite H. reflexivity. Qed.
Lemma reactor_lines i o : nth_error table i = Some o -> o_type o = trace_reactor ->
  let s := fold_left (special table) (filter (touches o) lw) s0 in
  reaction_lines s = flat_map (fun d => measured (LReaction (Named (o_description o)) d) (durations None (filter (of_reaction (o_pointer o) d) lw))) (range 0 64) /\
  schedule_lines s = [] /\ user_lines s = [] /\ wait_lines s = [].
Proof.
  intros N Ty. cbn zeta. set (l := filter (touches o) lw). destruct (reaction_slot table (Named (o_description o)) l s0) as (I1 & I2 & I3 & I4 & I5).
  - apply Forall_forall. intros e He. apply filter_In in He. destruct He as (_ & He). unfold touches in He. rewrite Ty in He. cbn in He. apply andb_true_iff in He. destruct He as (He & Hd). apply andb_true_iff in He, Hd. destruct He as (H1 & H2). destruct Hd as (H3 & H4). apply Z.eqb_eq in H2. apply Z.ltb_lt in H3. apply Z.leb_le in H4. split; [exact H1|]. split; [|lia]. apply (obj_at i o e N); [rewrite Ty; discriminate|exact H2].
  - left. reflexivity.
  - right. reflexivity.
  - cbn. lia.
  - reflexivity.
  - set (s := fold_left (special table) l s0) in *.
    assert (D : forall d, 0 <= d < 64 -> agrees (s_reactions s d) (durations None (filter (of_reaction (o_pointer o) d) lw)) (pending None (filter (of_reaction (o_pointer o) d) lw))).
    { intros d Hd. rewrite I5. cbn [s_reactions s0]. replace (filter (fun e => dst_id e =? d) l) with (filter (of_reaction (o_pointer o) d) lw); [apply times_agree0; apply Wf|].
      unfold l. rewrite filter_filter. apply filter_ext_in'. intros e _. unfold touches, of_reaction. rewrite Ty. cbn. destruct (Z.eqb_spec (dst_id e) d) as [->|]; [|rewrite !andb_false_r; reflexivity]. replace (d <? 64) with true by (symmetry; apply Z.ltb_lt; lia). replace (0 <=? d) with true by (symmetry; apply Z.leb_le; lia). rewrite !andb_true_r. reflexivity. }
    split; [|unfold schedule_lines, user_lines, wait_lines, schedule_called, user_event, user_value, worker_wait_ends, scheduler_advancing_time_ends; destruct I1 as [-> | ->]; repeat split].
    destruct I2 as [I2|(Le & Se)].
    + unfold reaction_lines. replace 64%nat with (Z.to_nat (s_seen s) + (64 - Z.to_nat (s_seen s)))%nat by lia. rewrite range_app, flat_map_app, (flat_map_nil _ (range (0 + _) _)).
      * rewrite app_nil_r. apply flat_map_ext_in. intros d Hd. apply in_range_iff in Hd. cbn zeta. rewrite I2. apply (agrees_line (LReaction (Named (o_description o)) d) _ _ _ (D d ltac:(lia))).
      * intros d Hd. apply in_range_iff in Hd. rewrite <- (agrees_line _ _ _ _ (D d ltac:(lia))), I4 by lia. reflexivity.
    + rewrite Se. change (reaction_lines s0) with (@nil line). symmetry. apply flat_map_nil. intros d Hd. apply in_range_iff in Hd. rewrite <- (agrees_line _ _ _ _ (D d ltac:(lia))). rewrite Se. reflexivity.
Qed.
Lemma trigger_lines i o : nth_error table i = Some o -> o_type o = trace_trigger ->
  let s := fold_left (special table) (filter (touches o) lw) s0 in
  reaction_lines s = [] /\ schedule_lines s = (match filter (of_schedule (o_trigger o)) lw with [] => [] | es => [LSchedule (Named (o_description o)) (number es)] end) /\ user_lines s = [] /\ wait_lines s = [].
Proof.
  intros N Ty. cbn zeta. assert (Fe : filter (touches o) lw = filter (of_schedule (o_trigger o)) lw) by (apply filter_ext_in'; intros e _; unfold touches; rewrite Ty; reflexivity). rewrite Fe.
  destruct (schedule_slot table (Named (o_description o)) (filter (of_schedule (o_trigger o)) lw) s0) as (I1 & I2 & I3 & I4).
  - apply Forall_forall. intros e He. apply filter_In in He. destruct He as (_ & He). unfold of_schedule in He. apply andb_true_iff in He. destruct He as (H1 & H2). apply Z.eqb_eq in H1, H2. split; [exact H1|]. apply (trg_at i o e N Ty H2).
  - destruct (filter (of_schedule (o_trigger o)) lw) as [|e l] eqn:El; [repeat split|]. destruct (I3 ltac:(discriminate)) as (J1 & J2). set (s := fold_left (special table) (e :: l) s0) in *.
    split; [apply no_reactions; exact I1|]. unfold schedule_lines, user_lines, wait_lines. rewrite J1, J2, I2. cbn [s_occ s0]. replace (0 + number (e :: l)) with (number (e :: l)) by lia. replace (0 <? number (e :: l)) with true by (symmetry; apply Z.ltb_lt; unfold number; cbn [length]; lia). repeat split.
Qed.
Lemma user_object_lines i o : nth_error table i = Some o -> o_type o = trace_user ->
  let s := fold_left (special table) (filter (touches o) lw) s0 in
  reaction_lines s = [] /\ schedule_lines s = [] /\
  user_lines s = (match filter (of_user (o_pointer o)) lw with
         | [] => []
         | es => [LUser (Named (o_description o)) (number es)
                   (match map extra_delay (filter (fun e => event_type e =? user_value) es) with
                    | [] => None
                    | vs => Some (total vs, total vs / number vs, largest vs, smallest vs)
                    end)]
         end) /\ wait_lines s = [].
Proof.
  intros N Ty. cbn zeta. assert (Fe : filter (touches o) lw = filter (of_user (o_pointer o)) lw) by (apply filter_ext_in'; intros e _; unfold touches; rewrite Ty; reflexivity). rewrite Fe.
  assert (Hin : forall e, In e (filter (of_user (o_pointer o)) lw) -> In e lw /\ is_user e = true /\ pointer e = o_pointer o).
  { intros e He. apply filter_In in He. destruct He as (Hl & He). unfold of_user in He. apply andb_true_iff in He. destruct He as (H1 & H2). apply Z.eqb_eq in H2. auto. }
  destruct Wf as (_ & _ & W3 & W4).
  destruct (user_slot table (Named (o_description o)) (filter (of_user (o_pointer o)) lw) s0) as (I1 & I2 & I3 & I4 & I5 & I6).
  - apply Forall_forall. intros e He. destruct (Hin e He) as (_ & H1 & H2). split; [exact H1|]. apply (obj_at i o e N); [rewrite Ty; discriminate|exact H2].
  - intros e1 e2 H1 H2. destruct (Hin e1 H1) as (A1 & A2 & A3). destruct (Hin e2 H2) as (B1 & B2 & B3). apply W4; try assumption. congruence.
  - assert (V : agrees (fold_left value_of (filter (fun e => event_type e =? user_value) (filter (of_user (o_pointer o)) lw)) r0) (map extra_delay (filter (fun e => event_type e =? user_value) (filter (of_user (o_pointer o)) lw))) None).
    { apply (values_agree _ r0 [] (agrees0 None eq_refl)). intros e He. apply filter_In in He. destruct He as (He & H5). apply Z.eqb_eq in H5. apply W3; [apply Hin; exact He|exact H5]. }
    cbn [s_reactions s0] in I6. rewrite <- I6 in V. destruct V as (V1 & V2 & V3 & V4 & V5 & _).
    destruct (filter (of_user (o_pointer o)) lw) as [|e l] eqn:El; [repeat split|]. set (s := fold_left (special table) (e :: l) s0) in *.
    specialize (I3 ltac:(discriminate)). pose proof (I4 e (or_introl eq_refl)) as J1. destruct (Hin e (or_introl eq_refl)) as (_ & Ue & _).
    assert (Ev : event_type e = user_event \/ event_type e = user_value).
    { unfold is_user in Ue. destruct (Z.eqb_spec (event_type e) user_event); [auto|]. destruct (Z.eqb_spec (event_type e) user_value); [auto|discriminate]. }
    split; [apply no_reactions; exact I1|]. split; [unfold schedule_lines; rewrite J1; destruct Ev as [-> | ->]; reflexivity|]. split; [|unfold wait_lines; rewrite J1; destruct Ev as [-> | ->]; reflexivity].
    unfold user_lines. rewrite I3, I2. cbn [s_occ s0]. replace (0 + number (e :: l)) with (number (e :: l)) by lia. replace (0 <? number (e :: l)) with true by (symmetry; apply Z.ltb_lt; unfold number; cbn [length]; lia). rewrite andb_true_r.
    assert (Ub : (s_event s =? user_event) || (s_event s =? user_value) = true) by (rewrite J1; exact Ue). rewrite Ub. do 2 f_equal. rewrite V1, V2, V3, V4.
    destruct Ev as [E4|E5].
    + rewrite J1, E4. cbn [andb]. rewrite filter_none; [reflexivity|]. intros x Hx. destruct (I4 x Hx). rewrite J1, E4. reflexivity.
    + rewrite J1, E5, Z.eqb_refl. cbn [andb]. rewrite filter_all in * by (intros x Hx; destruct (I4 x Hx); rewrite J1, E5; reflexivity).
      cbn [map] in *. set (v := extra_delay e) in *. set (vs := map extra_delay l) in *. assert (Nv : 0 < number (v :: vs)) by (unfold number; cbn [length]; lia). replace (0 <? number (v :: vs)) with true by (symmetry; apply Z.ltb_lt; exact Nv). rewrite Z.quot_div_nonneg; [reflexivity|apply total_pos; exact V5|exact Nv].
Qed.
Lemma other_lines o : o_type o <> trace_reactor -> o_type o <> trace_trigger -> o_type o <> trace_user -> filter (touches o) lw = [].
Proof. intros H1 H2 H3. apply filter_none. intros e _. unfold touches. apply Z.eqb_neq in H1, H2, H3. rewrite H1, H2, H3. reflexivity. Qed.
Lemma worker_lines w a : 0 <= w < 32 ->
  let s := fold_left (special table) (filter (of_worker w a) lw) s0 in
  reaction_lines s = [] /\ schedule_lines s = [] /\ user_lines s = [] /\ wait_lines s = measured (LWait w a) (durations None (filter (of_worker w a) lw)).
Proof.
  intros Hw. cbn zeta. set (idx := 2 * w + if a then 1 else 0). assert (Hi : 0 <= idx) by (unfold idx; destruct a; lia).
  destruct Wf as (_ & W2 & _). destruct (W2 w a) as (Pa & Pe). set (l := filter (of_worker w a) lw) in *.
  destruct (wait_slot table idx a l s0) as (I1 & I2 & I3 & I4 & I5 & I6 & I7).
  - apply Forall_forall. intros e He. apply filter_In in He. destruct He as (_ & He). unfold of_worker in He. apply andb_true_iff in He. destruct He as (H1 & H2). apply Z.eqb_eq in H2. unfold is_wait, windex, idx. rewrite H2.
    destruct a; [rewrite H1, orb_true_r; repeat split; lia|]. rewrite H1. cbn [orb]. assert (Na : is_advancing e = false).
    { unfold is_waiting, is_advancing, worker_wait_starts, worker_wait_ends, scheduler_advancing_time_starts, scheduler_advancing_time_ends in *. repeat match goal with |- context [?x =? ?y] => destruct (Z.eqb_spec x y) as [Ex|]; [rewrite Ex in H1; discriminate|] end. reflexivity. }
    rewrite Na. repeat split; lia.
  - exact Hi.
  - left. reflexivity.
  - reflexivity.
  - pose proof (times_agree0 l Pa) as A. cbn [s_reactions s0] in I5. rewrite <- I5 in A. destruct l as [|e l'] eqn:El; [repeat split|]. rewrite <- El in *. set (s := fold_left (special table) l s0) in *.
    assert (Ne : l <> []) by (rewrite El; discriminate). specialize (I3 Ne). specialize (I7 Ne None Pe).
    assert (Rl : forall f m, (m <= Z.to_nat idx)%nat -> flat_map (fun j => if 0 <? r_occ (s_reactions s j) then [f j] else []) (range 0 m) = ([] : list line)).
    { intros f m Hm. apply flat_map_nil. intros j Hj. apply in_range_iff in Hj. rewrite I2 by lia. reflexivity. }
    split; [unfold reaction_lines; rewrite I3; apply (Rl (fun j => LReaction (s_label s) j _ _ _ _ _)); lia|].
    split; [unfold schedule_lines; rewrite I7; destruct a; reflexivity|]. split; [unfold user_lines; rewrite I7; destruct a; reflexivity|].
    unfold wait_lines. rewrite I7. replace ((ends_of a =? worker_wait_ends) || (ends_of a =? scheduler_advancing_time_ends)) with true by (destruct a; reflexivity). rewrite I3.
    replace (Z.to_nat (idx + 1)) with (S (Z.to_nat idx)) by lia. rewrite range_S, flat_map_app. rewrite (Rl (fun j => LWait _ _ _ _ _ _ _) (Z.to_nat idx)) by lia. cbn [app flat_map]. rewrite app_nil_r. replace (0 + Z.of_nat (Z.to_nat idx)) with idx by lia. cbn zeta.
    replace (Z.quot idx 2) with w by (rewrite Z.quot_div_nonneg by lia; unfold idx; destruct a; lia). replace (ends_of a =? scheduler_advancing_time_ends) with a by (destruct a; reflexivity). apply (agrees_line (LWait w a) _ _ _ A).
Qed.
End Main.

(** *** Rows and summary *)
Lemma fold_max l : forall a, 0 <= a -> fold_left Z.max l a = Z.max a (fold_right Z.max 0 l).
Proof. induction l as [|x l IH]; intros a Ha; cbn [fold_left fold_right]; [lia|]. rewrite IH by lia. lia. Qed.
Lemma counted_occ k (es : list entry) : forall s, s_occ (fold_left (fun s _ => counted k s) es s) = s_occ s + number es.
Proof. induction es as [|e es IH]; intros s; cbn [fold_left]; [unfold number; cbn; lia|]. rewrite IH. unfold counted, number. cbn [s_occ length]. lia. Qed.
Lemma pass_slot f n c : f s0 = [] -> pass f n c = flat_map (fun i => f (slot c i)) (range 54 (n + 128)).
Proof. intros H. unfold pass. change NUM_EVENT_TYPES with 54. change (Z.to_nat (MAX_NUM_WORKERS * 2)) with 128%nat. apply flat_map_ext_in. intros i _. unfold slot. destruct (slots c i); [reflexivity|symmetry; exact H]. Qed.

Lemma csv_rows table start from until l rs s : to_csv table start from until l = Ok (rs, s) -> Forall (fun e => 0 <= microstep e < 2 ^ 31) (filter (in_window start from until) l) ->
  rs = map (row_of table start) (filter (in_window start from until) l).
Proof.
  unfold to_csv. destruct (convert _ _ _ _ _ _) as [c|] eqn:E; [|discriminate]. destruct (summary _ _ _) as [s'|]; [|discriminate]. intros H M. injection H as <- _. apply convert_facts in E. destruct E as (_ & E & _). rewrite E. cbn [rows conv0 app].
  apply map_ext_in. intros e He. rewrite Forall_forall in M. specialize (M e He). unfold raw_row, row_of, to_signed. change (2 ^ (32 - 1)) with (2 ^ 31). replace (microstep e <? 2 ^ 31) with true by (symmetry; apply Z.ltb_lt; lia). reflexivity.
Qed.

Lemma csv_summary table start from until l rs s : to_csv table start from until l = Ok (rs, s) ->
  table_ok table -> Forall (registered table) (filter (in_window start from until) l) -> well_formed (filter (in_window start from until) l) ->
  s = expected_summary table start (filter (in_window start from until) l).
Proof.
  unfold to_csv. destruct (convert _ _ _ _ _ _) as [c|] eqn:E; [|discriminate]. destruct (summary start (length table) c) as [s'|] eqn:Es; [|discriminate]. intros H Tok Reg Wf. injection H as _ <-. apply convert_facts in E. set (lw := filter (in_window start from until) l) in *. destruct E as (Evs & _ & E2 & E3 & E4).
  unfold summary in Es. destruct (fits64 (latest c - start)); [|discriminate]. injection Es as <-. unfold expected_summary.
  assert (L : latest c = last_time lw) by (rewrite E2; cbn [latest conv0]; rewrite fold_max by lia; unfold last_time; assert (0 <= fold_right Z.max 0 (map physical_time lw)) by (clear; induction (map physical_time lw); cbn [fold_right]; lia); lia). rewrite L. f_equal.
  assert (S0 : forall i, 54 <= i -> slot c i = fold_left (special table) (filter (fun e => target table e =? i) lw) s0) by (intros i Hi; rewrite E3 by exact Hi; reflexivity).
  f_equal.
  { unfold counts, expected_counts. change (Z.to_nat NUM_EVENT_TYPES) with 54%nat. apply flat_map_ext_in. intros k Hk. apply in_range_iff in Hk. rewrite E4 by lia. destruct (filter (fun e => event_type e =? k) lw) as [|e es] eqn:Ef; [reflexivity|]. rewrite counted_occ. reflexivity. }
  assert (Obj : forall (f : stats -> list line) (h : object -> list line), f s0 = [] -> (forall i o, nth_error table i = Some o -> f (fold_left (special table) (filter (touches o) lw) s0) = h o) ->
     flat_map (fun i => f (slot c i)) (range 54 (length table)) = flat_map h table).
  { intros f h _ Hh. apply flat_map_table. intros i o N. rewrite S0 by lia. rewrite (slot_filter table lw Tok Reg Evs i o N). apply (Hh i o N). }
  assert (Wk : forall (f : stats -> list line) (g : Z -> bool -> list line), f s0 = [] -> (forall w a, 0 <= w < 32 -> f (fold_left (special table) (filter (of_worker w a) lw) s0) = g w a) ->
     flat_map (fun i => f (slot c i)) (range (54 + Z.of_nat (length table)) 128) = flat_map (fun w => g w false ++ g w true) (range 0 32)).
  { intros f g F0 Hg. change 128%nat with (64 + 64)%nat. rewrite range_app, flat_map_app, (flat_map_nil _ (range (_ + Z.of_nat 64) 64)).
    - rewrite app_nil_r. change 64%nat with (2 * 32)%nat. rewrite flat_map_pairs. apply flat_map_ext_in. intros w Hw. apply in_range_iff in Hw. rewrite !S0 by lia. f_equal.
      + rewrite <- (Hg w false) by lia. f_equal. f_equal. apply filter_ext_in'. intros e He. rewrite <- (target_worker table lw Tok Reg Evs w false e He) by lia. f_equal. lia.
      + rewrite <- (Hg w true) by lia. f_equal. f_equal. apply filter_ext_in'. intros e He. rewrite <- (target_worker table lw Tok Reg Evs w true e He) by lia. f_equal. lia.
    - intros i Hi. apply in_range_iff in Hi. rewrite S0 by lia. rewrite filter_none; [exact F0|]. intros e He. apply (target_rest table lw Tok Reg i e He). lia. }
  assert (Nl : forall (l : list Z), flat_map (fun _ => [] ++ @nil line) l = []) by (induction l0; [reflexivity|assumption]).
  destruct s0_lines as (Z1 & Z2 & Z3 & Z4).
  rewrite !pass_slot by assumption. rewrite !range_app, !flat_map_app.
  assert (Kinds : forall i o, nth_error table i = Some o -> let s := fold_left (special table) (filter (touches o) lw) s0 in
    reaction_lines s = (if o_type o =? trace_reactor then flat_map (fun d => measured (LReaction (Named (o_description o)) d) (durations None (filter (of_reaction (o_pointer o) d) lw))) (range 0 64) else []) /\
    schedule_lines s = (if o_type o =? trace_trigger then match filter (of_schedule (o_trigger o)) lw with [] => [] | es => [LSchedule (Named (o_description o)) (number es)] end else []) /\
    user_lines s = (if o_type o =? trace_user then match filter (of_user (o_pointer o)) lw with [] => [] | es => [LUser (Named (o_description o)) (number es) (match map extra_delay (filter (fun e => event_type e =? user_value) es) with [] => None | vs => Some (total vs, total vs / number vs, largest vs, smallest vs) end)] end else []) /\
    wait_lines s = []).
  { intros i o N. cbn zeta. destruct (Z.eqb_spec (o_type o) trace_reactor) as [T1|T1].
    - destruct (reactor_lines table lw Tok Wf i o N T1) as (A & B & C & D). rewrite A, B, C, D, T1. repeat split.
    - destruct (Z.eqb_spec (o_type o) trace_trigger) as [T2|T2].
      + destruct (trigger_lines table lw Tok i o N T2) as (A & B & C & D). rewrite A, B, C, D, T2. repeat split.
      + destruct (Z.eqb_spec (o_type o) trace_user) as [T3|T3].
        * destruct (user_object_lines table lw Tok Wf i o N T3) as (A & B & C & D). rewrite A, B, C, D. repeat split.
        * rewrite (other_lines lw o T1 T2 T3). repeat split. }
  f_equal; [|f_equal; [|f_equal]].
  - rewrite (Obj reaction_lines _ Z1 (fun i o N => proj1 (Kinds i o N))), (Wk reaction_lines (fun _ _ => []) Z1 (fun w a Hw => proj1 (worker_lines table lw Wf w a Hw))), Nl, app_nil_r. reflexivity.
  - rewrite (Obj schedule_lines _ Z2 (fun i o N => proj1 (proj2 (Kinds i o N)))), (Wk schedule_lines (fun _ _ => []) Z2 (fun w a Hw => proj1 (proj2 (worker_lines table lw Wf w a Hw)))), Nl, app_nil_r. reflexivity.
  - rewrite (Obj user_lines _ Z3 (fun i o N => proj1 (proj2 (proj2 (Kinds i o N))))), (Wk user_lines (fun _ _ => []) Z3 (fun w a Hw => proj1 (proj2 (proj2 (worker_lines table lw Wf w a Hw))))), Nl, app_nil_r. reflexivity.
  - rewrite (Obj wait_lines (fun _ => []) Z4 (fun i o N => proj2 (proj2 (proj2 (Kinds i o N))))), (Wk wait_lines (fun w a => measured (LWait w a) (durations None (filter (of_worker w a) lw))) Z4 (fun w a Hw => proj2 (proj2 (proj2 (worker_lines table lw Wf w a Hw))))).
    replace (flat_map (fun _ : object => @nil line) table) with (@nil line) by (clear; induction table; [reflexivity|assumption]). reflexivity.
Qed.

(** *** Definedness *)
Lemma durations_app l1 l2 : forall o, durations o (l1 ++ l2) = durations o l1 ++ durations (pending o l1) l2.
Proof.
  induction l1 as [|e l1 IH]; intros o; [reflexivity|]. cbn [app durations pending]. destruct (starts e); [apply IH|]. destruct o; rewrite IH; reflexivity.
Qed.
Lemma paired_app l1 l2 : forall o, paired o (l1 ++ l2) -> paired o l1 /\ paired (pending o l1) l2.
Proof.
  induction l1 as [|e l1 IH]; intros o P; cbn [app paired pending] in *; [split; [exact Logic.I|exact P]|]. destruct o as [s|].
  - destruct P as (P1 & P2 & P3). rewrite P1. destruct (IH _ P3). auto.
  - destruct P as (P1 & P2). rewrite P1. destruct (IH _ P2). auto.
Qed.
Lemma durations_pos l : forall o, paired o l -> Forall (fun v => 0 < v) (durations o l).
Proof.
  induction l as [|e l IH]; intros o P; cbn [durations paired] in *; [constructor|]. destruct o as [s|].
  - destruct P as (P1 & P2 & P3). rewrite P1. constructor; [lia|apply IH; exact P3].
  - destruct P as (P1 & P2). rewrite P1. apply IH. exact P2.
Qed.
Lemma durations_number l : forall o, number (durations o l) <= number l.
Proof.
  induction l as [|e l IH]; intros o; unfold number in *; cbn [durations length]; [lia|]. destruct (starts e); [specialize (IH (Some (physical_time e))); lia|]. destruct o; cbn [length]; specialize (IH None); lia.
Qed.
Lemma total_app l1 l2 : total (l1 ++ l2) = total l1 + total l2.
Proof. induction l1 as [|x l1 IH]; unfold total in *; cbn [app fold_right]; lia. Qed.
Lemma filter_number {A} (f : A -> bool) l : number (filter f l) <= number l.
Proof. unfold number. induction l as [|x l IH]; cbn [filter length]; [lia|]. destruct (f x); cbn [length]; lia. Qed.
Lemma special_occ table l : forall s, s_occ (fold_left (special table) l s) = s_occ s + number l.
Proof.
  induction l as [|e l IH]; intros s; cbn [fold_left]; [unfold number; cbn; lia|]. rewrite IH. replace (s_occ (special table s e)) with (s_occ s + 1); [unfold number; cbn [length]; lia|].
  unfold special. destruct (is_reaction e), (event_type e =? schedule_called), (event_type e =? user_event), (event_type e =? user_value); reflexivity.
Qed.
Lemma fits32_ok z : 0 <= z < 2 ^ 31 -> fits32 z = true.
Proof. intros H. unfold fits32. apply andb_true_iff. split; [apply Z.leb_le|apply Z.ltb_lt]; lia. Qed.
Lemma fits64_ok z : - 2 ^ 63 <= z < 2 ^ 63 -> fits64 z = true.
Proof. intros H. unfold fits64. apply andb_true_iff. split; [apply Z.leb_le|apply Z.ltb_lt]; lia. Qed.

(** What a prefix of the records keeps. *)
Definition measurable (l : list entry) : Prop :=
  (forall p d, paired None (filter (of_reaction p d) l)) /\
  (forall w a, paired None (filter (of_worker w a) l)) /\
  (forall e, In e l -> event_type e = user_value -> 0 < extra_delay e) /\
  (forall e1 e2, In e1 l -> In e2 l -> is_user e1 = true -> is_user e2 = true -> pointer e1 = pointer e2 -> event_type e1 = event_type e2) /\
  sums_ok l.
Definition values_of (p : Z) (l : list entry) : list Z := map extra_delay (filter (fun e => event_type e =? user_value) (filter (of_user p) l)).
Lemma values_pos p l : (forall e, In e l -> event_type e = user_value -> 0 < extra_delay e) -> Forall (fun v => 0 < v) (values_of p l).
Proof.
  intros H. apply Forall_forall. intros v Hv. unfold values_of in Hv. apply in_map_iff in Hv. destruct Hv as (e & <- & He). apply filter_In in He. destruct He as (He & H5). apply filter_In in He. destruct He as (He & _). apply H; [exact He|apply Z.eqb_eq; exact H5].
Qed.
Lemma values_app p l1 l2 : values_of p (l1 ++ l2) = values_of p l1 ++ values_of p l2.
Proof. unfold values_of. rewrite !filter_app, map_app. reflexivity. Qed.
Lemma measurable_prefix l1 l2 : measurable (l1 ++ l2) -> measurable l1.
Proof.
  intros (M1 & M2 & M3 & M4 & (M5 & M6 & M7)).
  assert (P1 : forall p d, paired None (filter (of_reaction p d) l1)) by (intros p d; specialize (M1 p d); rewrite filter_app in M1; apply (paired_app _ _ _ M1)).
  assert (P2 : forall w a, paired None (filter (of_worker w a) l1)) by (intros w a; specialize (M2 w a); rewrite filter_app in M2; apply (paired_app _ _ _ M2)).
  split; [exact P1|]. split; [exact P2|]. split; [intros e He; apply M3; apply in_or_app; left; exact He|]. split; [intros e1 e2 H1 H2; apply M4; apply in_or_app; left; assumption|].
  split; [|split].
  - intros p d. specialize (M5 p d). specialize (M1 p d). rewrite filter_app in *. rewrite durations_app, total_app in M5. destruct (paired_app _ _ _ M1) as (_ & Q). pose proof (total_pos _ (durations_pos _ _ Q)). lia.
  - intros w a. specialize (M6 w a). specialize (M2 w a). rewrite filter_app in *. rewrite durations_app, total_app in M6. destruct (paired_app _ _ _ M2) as (_ & Q). pose proof (total_pos _ (durations_pos _ _ Q)). lia.
  - intros p. specialize (M7 p). fold (values_of p (l1 ++ l2)) in M7. rewrite values_app, total_app in M7. fold (values_of p l1).
    assert (0 <= total (values_of p l2)) by (apply total_pos, values_pos; intros e He; apply M3; apply in_or_app; right; exact He). lia.
Qed.

Lemma start_or_end_ok l e r b : b = starts e -> agrees r (durations None l) (pending None l) -> paired None (l ++ [e]) -> total (durations None (l ++ [e])) < 2 ^ 63 -> number l < 2 ^ 31 - 1 ->
  exists r', start_or_end b r (physical_time e) = Ok r'.
Proof.
  intros -> A P T N. unfold start_or_end. destruct (starts e) eqn:St; [eexists; reflexivity|]. destruct (paired_app _ _ _ P) as (_ & Q). cbn [paired] in Q. rewrite durations_app, total_app in T. cbn [durations] in T. rewrite St in T.
  destruct (pending None l) as [s|] eqn:Pe; [|destruct Q as (Q & _); congruence]. destruct Q as (_ & Q & _). destruct A as (A1 & A2 & A3 & A4 & A5 & A6). rewrite (A6 s eq_refl). pose proof (total_pos _ A5) as Tp. unfold total in T at 2. cbn [fold_right] in T.
  rewrite fits64_ok by lia. unfold add_value. pose proof (durations_number l None) as Nl. assert (0 <= number (durations None l)) by (unfold number; lia). rewrite fits32_ok by lia. rewrite fits64_ok by lia. eexists. reflexivity.
Qed.
Lemma store_ok c i ev l seen j s r : 0 <= s_occ s < 2 ^ 31 - 1 -> exists c', store c i ev l seen j s r = Ok c'.
Proof. intros H. unfold store. rewrite fits32_ok by lia. eexists. reflexivity. Qed.

Section Defined.
Variables (table : list object) (start from until : Z).
Hypothesis Tok : table_ok table.
Hypothesis Tlen : (length table <= 1024)%nat.
Hypothesis Hstart : time_ok start.
Notation window := (in_window start from until).

Lemma one_ok l e c : convert table start from until conv0 l = Ok c -> in_range start e -> number (filter window (l ++ [e])) < 2 ^ 31 ->
  Forall (registered table) (filter window (l ++ [e])) -> measurable (filter window (l ++ [e])) -> exists c', convert_one table start from until c e = Ok c'.
Proof.
  intros E (R1 & R2 & R3 & R4 & R5) Nl Reg M. apply convert_facts in E. rewrite filter_app in *. cbn [filter] in *. set (lw := filter window l) in *. destruct E as (Evs & _ & _ & E3 & E4).
  assert (S0 : forall i, 54 <= i -> slot c i = fold_left (special table) (filter (fun e => target table e =? i) lw) s0) by (intros i Hi; rewrite E3 by exact Hi; reflexivity). clear E3.
  unfold convert_one. pose proof (object_name table (pointer e)) as On. pose proof (trigger_label table (trigger e)) as Tn. pose proof (obj_nonneg table e) as Ho. pose proof (trg_nonneg table e) as Ht. unfold obj_index in Ho. unfold trg_index in Ht.
  destruct (get_object_description table (pointer e)) as (name, obj) eqn:Eo. destruct (get_trigger_name table (trigger e)) as (tname, trg) eqn:Et. cbn [fst snd] in *. cbn zeta.
  unfold time_ok in *. rewrite fits64_ok by lia. cbn [negb].
  change ((from <=? logical_time e - start) && (logical_time e - start <? until)) with (window e). destruct (window e) eqn:We; [|eexists; reflexivity].
  change NUM_EVENT_TYPES with 54. rewrite (fits64_ok (physical_time e - start)) by lia. replace (event_type e <? 0) with false by (symmetry; apply Z.ltb_ge; lia). replace (54 <=? event_type e) with false by (symmetry; apply Z.leb_gt; lia). cbn [orb negb].
  set (c1 := mkConv _ _ _). destruct (alloc_facts c1 (54 + obj)) as (A1 & A2 & A3 & A4). destruct (alloc_facts (alloc c1 (54 + obj)) (54 + trg)) as (B1 & B2 & B3 & B4).
  rewrite number_snoc in Nl. assert (N0 : 0 <= number lw) by (unfold number; lia).
  unfold count_event. assert (Oc : 0 <= s_occ (slot c (event_type e)) <= number lw).
  { unfold slot. rewrite E4 by lia. pose proof (filter_number (fun e0 => event_type e0 =? event_type e) lw) as Hf. destruct (filter _ lw) as [|x es]; [cbn; lia|]. rewrite counted_occ. change (s_occ (slot conv0 (event_type e))) with 0. unfold number in *. lia. }
  rewrite B3, A3. change (slot c1 (event_type e)) with (slot c (event_type e)). rewrite fits32_ok by lia. set (c2 := mkConv _ _ _).
  assert (S2 : forall i, 54 <= i -> slot c2 i = slot c i).
  { intros i Hi. unfold slot at 1. unfold c2. cbn [slots]. rewrite upd_other by lia. fold (slot (alloc (alloc c1 (54 + obj)) (54 + trg)) i). rewrite B3, A3. reflexivity. }
  assert (So : forall i, 54 <= i -> 0 <= s_occ (slot c2 i) < 2 ^ 31 - 1).
  { intros i Hi. rewrite S2, S0 by exact Hi. rewrite special_occ. cbn [s_occ s0]. pose proof (filter_number (fun e0 => target table e0 =? i) lw). assert (0 <= number (filter (fun e0 => target table e0 =? i) lw)) by (unfold number; lia). lia. }
  clearbody c2. clear E4 Oc A1 A2 A3 A4 B1 B2 B3 B4. clear c1.
  apply Forall_app in Reg. destruct Reg as (Reg & Re). inversion Re as [|? ? (Q1 & Q2 & Q3 & _) _]; subst. pose proof (measurable_prefix _ _ M) as Mp. destruct M as (M1 & M2 & M3 & M4 & (M5 & M6 & M7)). destruct Mp as (P1 & P2 & P3 & P4 & _).
  destruct (kinds e ltac:(lia)) as (K1 & K2 & K3 & K4).
  unfold count_special. cbn zeta. change ((event_type e =? reaction_starts) || (event_type e =? reaction_ends)) with (is_reaction e). change MAX_NUM_REACTIONS with 64. change NUM_EVENT_TYPES with 54. change (MAX_NUM_WORKERS * 2) with 128.
  destruct (is_reaction e) eqn:R.
  { destruct (Z.leb_spec 64 (dst_id e)) as [Hd|Hd]; [eexists; reflexivity|]. specialize (R4 eq_refl). replace (dst_id e <? 0) with false by (symmetry; apply Z.ltb_ge; lia).
    destruct (Q1 eq_refl) as (o & Io & Ty & Po). apply In_nth_error in Io. destruct Io as (i & Ni). destruct (obj_at table Tok i o e Ni ltac:(rewrite Ty; discriminate) (eq_sym Po)) as (O1 & _). unfold obj_index in O1. rewrite Eo in O1. cbn [snd] in O1.
    assert (Ag : agrees (s_reactions (slot c2 (54 + obj)) (dst_id e)) (durations None (filter (of_reaction (pointer e) (dst_id e)) lw)) (pending None (filter (of_reaction (pointer e) (dst_id e)) lw))).
    { rewrite S2, S0, O1 by lia. rewrite (slot_filter table lw Tok Reg Evs i o Ni). destruct (reaction_slot table (Named (o_description o)) (filter (touches o) lw) s0) as (_ & _ & _ & _ & I5).
      - apply Forall_forall. intros x Hx. apply filter_In in Hx. destruct Hx as (_ & Hx). unfold touches in Hx. rewrite Ty in Hx. cbn in Hx. apply andb_true_iff in Hx. destruct Hx as (Hx & Hy). apply andb_true_iff in Hx, Hy. destruct Hx as (H1 & H2). destruct Hy as (H3 & H4). apply Z.eqb_eq in H2. apply Z.ltb_lt in H3. apply Z.leb_le in H4. split; [exact H1|]. split; [|lia]. apply (obj_at table Tok i o x Ni); [rewrite Ty; discriminate|exact H2].
      - left. reflexivity.
      - right. reflexivity.
      - cbn. lia.
      - reflexivity.
      - rewrite I5. cbn [s_reactions s0]. replace (filter (fun x => dst_id x =? dst_id e) (filter (touches o) lw)) with (filter (of_reaction (pointer e) (dst_id e)) lw); [apply times_agree0; apply P1|].
        rewrite filter_filter. apply filter_ext_in'. intros x _. unfold touches, of_reaction. rewrite Ty, Po. cbn. destruct (Z.eqb_spec (dst_id x) (dst_id e)) as [->|]; [|rewrite !andb_false_r; reflexivity]. replace (dst_id e <? 64) with true by (symmetry; apply Z.ltb_lt; lia). replace (0 <=? dst_id e) with true by (symmetry; apply Z.leb_le; lia). rewrite !andb_true_r. reflexivity. }
    assert (Fe : filter (of_reaction (pointer e) (dst_id e)) (lw ++ [e]) = filter (of_reaction (pointer e) (dst_id e)) lw ++ [e]) by (rewrite filter_app; cbn [filter]; unfold of_reaction at 2; rewrite R, !Z.eqb_refl; reflexivity).
    destruct (K1 eq_refl) as (_ & _ & _ & St). pose proof (filter_number (of_reaction (pointer e) (dst_id e)) lw) as Nf.
    destruct (start_or_end_ok _ e _ (event_type e =? reaction_starts) (eq_sym St) Ag) as (r' & ->); [rewrite <- Fe; apply M1|rewrite <- Fe; apply M5|lia|]. apply store_ok. apply So. lia. }
  destruct (Z.eqb_spec (event_type e) schedule_called) as [S3|S3].
  { replace (trg <? 0) with false by (symmetry; apply Z.ltb_ge; lia). apply store_ok. apply So. lia. }
  destruct (Z.eqb_spec (event_type e) user_event) as [S4|S4]; [apply store_ok; apply So; lia|].
  destruct (Z.eqb_spec (event_type e) user_value) as [S5|S5].
  { assert (IU : is_user e = true) by (unfold is_user; rewrite S5; reflexivity). destruct (Q3 IU) as (o & Io & Ty & Po). apply In_nth_error in Io. destruct Io as (i & Ni). destruct (obj_at table Tok i o e Ni ltac:(rewrite Ty; discriminate) (eq_sym Po)) as (O1 & _). unfold obj_index in O1. rewrite Eo in O1. cbn [snd] in O1.
    assert (Ag : agrees (s_reactions (slot c2 (54 + obj)) 0) (values_of (pointer e) lw) None).
    { rewrite S2, S0, O1 by lia. rewrite (slot_filter table lw Tok Reg Evs i o Ni). assert (Fe : filter (touches o) lw = filter (of_user (pointer e)) lw) by (apply filter_ext_in'; intros x _; unfold touches; rewrite Ty, Po; reflexivity). rewrite Fe.
      assert (Hin : forall x, In x (filter (of_user (pointer e)) lw) -> In x lw /\ is_user x = true /\ pointer x = pointer e).
      { intros x Hx. apply filter_In in Hx. destruct Hx as (Hl & Hx). unfold of_user in Hx. apply andb_true_iff in Hx. destruct Hx as (H1 & H2). apply Z.eqb_eq in H2. auto. }
      destruct (user_slot table (reactor_name table (pointer e)) (filter (of_user (pointer e)) lw) s0) as (_ & _ & _ & _ & _ & I6).
      - apply Forall_forall. intros x Hx. destruct (Hin x Hx) as (_ & H1 & H2). split; [exact H1|rewrite H2; reflexivity].
      - intros e1 e2 H1 H2. destruct (Hin e1 H1) as (X1 & X2 & X3). destruct (Hin e2 H2) as (Y1 & Y2 & Y3). apply P4; try assumption. congruence.
      - rewrite I6. cbn [s_reactions s0]. apply (values_agree _ r0 [] (agrees0 None eq_refl)). intros x Hx. apply filter_In in Hx. destruct Hx as (Hx & H5). apply Z.eqb_eq in H5. apply P3; [apply Hin; exact Hx|exact H5]. }
    specialize (M7 (pointer e)). fold (values_of (pointer e) (lw ++ [e])) in M7. rewrite values_app, total_app in M7. assert (Ve : values_of (pointer e) [e] = [extra_delay e]) by (unfold values_of; cbn [filter]; unfold of_user; rewrite IU, Z.eqb_refl; cbn [andb filter]; rewrite S5; reflexivity).
    rewrite Ve in M7. unfold total in M7 at 2. cbn [fold_right] in M7. destruct Ag as (G1 & G2 & _ & _ & G5 & _). pose proof (total_pos _ G5) as Tp. specialize (M3 e ltac:(apply in_or_app; right; left; reflexivity) S5).
    assert (Nv : number (values_of (pointer e) lw) <= number lw).
    { unfold values_of. pose proof (filter_number (fun x => event_type x =? user_value) (filter (of_user (pointer e)) lw)). pose proof (filter_number (of_user (pointer e)) lw). unfold number in *. rewrite map_length. lia. }
    assert (0 <= number (values_of (pointer e) lw)) by (unfold number; lia).
    unfold add_value. rewrite fits32_ok, fits64_ok by lia. cbn [andb]. apply store_ok. apply So. lia. }
  change ((event_type e =? scheduler_advancing_time_starts) || (event_type e =? scheduler_advancing_time_ends)) with (is_advancing e).
  assert (Wb : (event_type e =? worker_wait_starts) || (event_type e =? worker_wait_ends) || (event_type e =? scheduler_advancing_time_starts) || (event_type e =? scheduler_advancing_time_ends) = is_wait e) by (unfold is_wait, is_waiting, is_advancing; rewrite !orb_assoc; reflexivity).
  rewrite Wb. change (src_id e * 2 + (if is_advancing e then 1 else 0)) with (windex e). destruct (is_wait e) eqn:W; [|eexists; reflexivity].
  assert (Hsrc : 0 <= src_id e < 32) by (apply R5; unfold is_wait in W; apply orb_true_iff in W; exact W).
  assert (Hw : 0 <= windex e < 64) by (unfold windex; destruct (is_advancing e); lia).
  rewrite !fits32_ok by lia. cbn [negb orb]. replace (54 + Z.of_nat (length table) + 128 <=? Z.of_nat (length table) + windex e) with false by (symmetry; apply Z.leb_gt; lia). replace (windex e <? 0) with false by (symmetry; apply Z.ltb_ge; lia). replace (64 <=? windex e) with false by (symmetry; apply Z.leb_gt; lia). cbn [orb].
  assert (Iw : windex e = 2 * src_id e + if is_advancing e then 1 else 0) by (unfold windex; lia).
  assert (Ow : forall x, of_worker (src_id e) (is_advancing e) x = true -> is_wait x = true /\ windex x = windex e /\ is_advancing x = is_advancing e).
  { intros x Hx. unfold of_worker in Hx. apply andb_true_iff in Hx. destruct Hx as (H1 & H2). apply Z.eqb_eq in H2. unfold is_wait, windex. rewrite H2.
    destruct (is_advancing e); [rewrite H1, orb_true_r; repeat split; lia|]. rewrite H1. cbn [orb]. assert (Na : is_advancing x = false).
    { unfold is_waiting, is_advancing, worker_wait_starts, worker_wait_ends, scheduler_advancing_time_starts, scheduler_advancing_time_ends in *. repeat match goal with |- context [?y =? ?z] => destruct (Z.eqb_spec y z) as [Ex|]; [rewrite Ex in H1; discriminate|] end. reflexivity. }
    rewrite Na. repeat split; lia. }
  set (a := is_advancing e) in *. set (w := src_id e) in *.
  assert (Fl : filter (fun x => target table x =? 54 + Z.of_nat (length table) + windex e) lw = filter (of_worker w a) lw).
  { apply filter_ext_in'. intros x Hx. rewrite Iw. apply (target_worker table lw Tok Reg Evs w a x Hx). lia. }
  assert (Ag : agrees (s_reactions (slot c2 (54 + Z.of_nat (length table) + windex e)) (windex e)) (durations None (filter (of_worker w a) lw)) (pending None (filter (of_worker w a) lw))).
  { rewrite S2, S0, Fl by lia. destruct (wait_slot table (windex e) a (filter (of_worker w a) lw) s0) as (_ & _ & _ & _ & I5 & _).
    - apply Forall_forall. intros x Hx. apply filter_In in Hx. apply Ow. apply Hx.
    - lia.
    - left. reflexivity.
    - reflexivity.
    - rewrite I5. apply times_agree0. apply P2. }
  assert (Fe : filter (of_worker w a) (lw ++ [e]) = filter (of_worker w a) lw ++ [e]).
  { rewrite filter_app. cbn [filter]. assert (Oe : of_worker w a e = true). { unfold of_worker. fold w. rewrite Z.eqb_refl, andb_true_r. unfold is_wait in W. fold a in W. destruct a eqn:Ea; [exact Ea|]. rewrite orb_false_r in W. exact W. } rewrite Oe. reflexivity. }
  destruct (K4 eq_refl) as (_ & _ & _ & St). pose proof (filter_number (of_worker w a) lw) as Nf.
  destruct (start_or_end_ok _ e _ ((event_type e =? worker_wait_starts) || (event_type e =? scheduler_advancing_time_starts)) (eq_sym St) Ag) as (r' & ->); [rewrite <- Fe; apply M2|rewrite <- Fe; apply M6|lia|]. apply store_ok. apply So. lia.
Qed.

Lemma convert_app l1 l2 : forall c, convert table start from until c (l1 ++ l2) = match convert table start from until c l1 with Ok c => convert table start from until c l2 | Undefined => Undefined end.
Proof. induction l1 as [|e l1 IH]; intros c; [reflexivity|]. cbn [app convert]. destruct (convert_one _ _ _ _ _ _); [apply IH|reflexivity]. Qed.
Lemma convert_ok l : Forall (in_range start) l -> number (filter window l) < 2 ^ 31 -> Forall (registered table) (filter window l) -> measurable (filter window l) -> exists c, convert table start from until conv0 l = Ok c.
Proof.
  induction l as [|e l IH] using rev_ind; intros R N Reg M; [eexists; reflexivity|]. pose proof (Forall_app (in_range start) l [e]) as F. apply F in R. destruct R as (R & Re). inversion Re as [|? ? Re' _]; subst.
  destruct IH as (c & E).
  - exact R.
  - rewrite filter_app in N. unfold number in *. rewrite app_length in N. lia.
  - rewrite filter_app in Reg. apply Forall_app in Reg. apply Reg.
  - rewrite filter_app in M. exact (measurable_prefix _ _ M).
  - destruct (one_ok l e c E Re' N Reg M) as (c' & E'). exists c'. rewrite convert_app, E. cbn [convert]. rewrite E'. reflexivity.
Qed.
Lemma csv_defined l : Forall (in_range start) l -> number (filter window l) < 2 ^ 31 -> Forall (registered table) (filter window l) -> well_formed (filter window l) -> sums_ok (filter window l) ->
  exists rs s, to_csv table start from until l = Ok (rs, s).
Proof.
  intros R N Reg (W1 & W2 & W3 & W4) Su. destruct (convert_ok l R N Reg) as (c & E).
  - split; [exact W1|]. split; [intros w a; apply W2|]. split; [exact W3|]. split; [exact W4|exact Su].
  - unfold to_csv. rewrite E. apply convert_facts in E. destruct E as (_ & _ & E2 & _). unfold summary. rewrite fits64_ok; [eexists; eexists; reflexivity|].
    rewrite E2. cbn [latest conv0]. rewrite fold_max by lia. assert (B : 0 <= fold_right Z.max 0 (map physical_time (filter window l)) < 2 ^ 63).
    { assert (F : Forall (in_range start) (filter window l)) by (apply Forall_forall; intros e He; apply filter_In in He; rewrite Forall_forall in R; apply R; apply He). clear -F. induction F as [|e l' (_ & R2 & _) F IH]; cbn [map fold_right]; [lia|]. unfold time_ok in R2. lia. }
    unfold time_ok in Hstart. lia.
Qed.
End Defined.
