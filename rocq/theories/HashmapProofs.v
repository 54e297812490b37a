From Verif Require Import Base Pqueue PqueueProofs Hashmap HashmapSpec.
Open Scope nat_scope.

Section P.
Variable hash : Z -> nat.

(** The probe order: from the ideal slot to the end, then from the start. *)
Definition order (m : hmap) (k : Z) : list nat :=
  let i := hash k mod m_cap m in seq i (m_cap m - i) ++ seq 0 (m_cap m).
Definition stops (m : hmap) (k : Z) (a : nat) : bool := (m_key m a =? m_nothing m)%Z || (m_key m a =? k)%Z.
Definition addr (m : hmap) (k : Z) : option nat := find (stops m k) (order m k).
Definition sentinel (m : hmap) : Prop := m_key m (m_cap m) = m_nothing m.

Lemma scan_ok m k : sentinel m -> forall fuel a, a <= m_cap m -> m_cap m - a < fuel ->
  hm_scan fuel m k a = Ok (match find (stops m k) (seq a (m_cap m - a)) with Some b => b | None => m_cap m end).
Proof.
  intros Hs. induction fuel as [|fuel IH]; intros a Ha Hf; [lia|]. cbn [hm_scan].
  destruct (Nat.ltb_spec (m_cap m) a); [lia|].
  change ((m_key m a =? m_nothing m)%Z || (m_key m a =? k)%Z) with (stops m k a).
  destruct (Nat.eq_dec a (m_cap m)) as [->|Hne].
  - rewrite Nat.sub_diag. cbn [seq find]. unfold stops. rewrite Hs, Z.eqb_refl. reflexivity.
  - replace (m_cap m - a) with (S (m_cap m - S a)) by lia. cbn [seq find].
    destruct (stops m k a); [reflexivity|]. rewrite IH by lia. reflexivity.
Qed.

Lemma find_app' {A} (f : A -> bool) l1 l2 :
  find f (l1 ++ l2) = match find f l1 with Some x => Some x | None => find f l2 end.
Proof. induction l1 as [|x l IH]; [reflexivity|]. cbn [app find]. destruct (f x); [reflexivity|exact IH]. Qed.

Lemma addr_ok m k : 1 <= m_cap m -> sentinel m -> hm_addr hash m k = Ok (addr m k).
Proof.
  intros Hc Hs. unfold hm_addr, hm_ideal. destruct (Nat.eqb_spec (m_cap m) 0); [lia|]. cbn [bind].
  pose proof (Nat.mod_upper_bound (hash k) (m_cap m) ltac:(lia)) as Hi.
  rewrite scan_ok by (assumption || lia). cbn [bind]. unfold addr, order. rewrite find_app'.
  destruct (find (stops m k) (seq (hash k mod m_cap m) (m_cap m - hash k mod m_cap m))) as [b|] eqn:E.
  - apply find_some in E as [Hin _]. apply in_seq in Hin.
    destruct (Nat.eqb_spec b (m_cap m)); [lia|reflexivity].
  - rewrite Nat.eqb_refl. rewrite scan_ok by (assumption || lia). cbn [bind]. rewrite Nat.sub_0_r.
    destruct (find (stops m k) (seq 0 (m_cap m))) as [b|] eqn:E2.
    + apply find_some in E2 as [Hin _]. apply in_seq in Hin. destruct (Nat.eqb_spec b (m_cap m)); [lia|reflexivity].
    + rewrite Nat.eqb_refl. reflexivity.
Qed.

Lemma addr_range m k a : 1 <= m_cap m -> addr m k = Some a -> a < m_cap m /\ (m_key m a = m_nothing m \/ m_key m a = k).
Proof.
  intros Hc H. unfold addr in H. apply find_some in H as [Hin Hst].
  pose proof (Nat.mod_upper_bound (hash k) (m_cap m) ltac:(lia)) as Hi.
  unfold order in Hin. apply in_app_iff in Hin. rewrite !in_seq in Hin. split; [lia|].
  unfold stops in Hst. lia.
Qed.
Lemma addr_none m k : addr m k = None -> forall a, a < m_cap m -> m_key m a <> m_nothing m /\ m_key m a <> k.
Proof.
  intros H a Ha. unfold addr in H. apply find_none with (x := a) in H.
  - unfold stops in H. lia.
  - unfold order. apply in_app_iff. right. apply in_seq. lia.
Qed.

(** Invariant: stored keys are where the probe finds them, values are as specified. *)
Record minv (m : hmap) (kvs : list (Z * Z)) : Prop := {
  mi_cap : 1 <= m_cap m;
  mi_sent : sentinel m;
  mi_probe : forall a, a < m_cap m -> m_key m a <> m_nothing m -> addr m (m_key m a) = Some a;
  mi_val : forall a, a < m_cap m -> m_key m a <> m_nothing m -> m_val m a = latest (m_key m a) kvs;
  mi_keys : forall k, In k (map fst kvs) <-> exists a, a < m_cap m /\ m_key m a = k /\ k <> m_nothing m
}.

Lemma find_change {A} (f g : A -> bool) l a : find f l = Some a -> g a = true ->
  (forall x, f x = false -> g x = false) -> find g l = Some a.
Proof.
  intros Hf Hg Himp. induction l as [|x l IH]; [discriminate|]. cbn [find] in *.
  destruct (f x) eqn:E.
  - injection Hf as ->. rewrite Hg. reflexivity.
  - rewrite (Himp x E). apply IH; exact Hf.
Qed.

Lemma latest_app k kvs v : forall k', latest k (kvs ++ [(k', v)]) = if (k =? k')%Z then Some v else latest k kvs.
Proof.
  intros k'. induction kvs as [|[k1 v1] r IH]; cbn [app latest].
  - destruct (k =? k')%Z; reflexivity.
  - rewrite IH. destruct (k =? k')%Z; reflexivity.
Qed.

Lemma put_inv m kvs k v a : minv m kvs -> k <> m_nothing m -> addr m k = Some a ->
  minv (mkHmap (upd (m_key m) a k) (upd (m_val m) a (Some v)) (m_cap m) (m_num m) (m_nothing m)) (kvs ++ [(k, v)]).
Proof.
  intros H Hk Ha. destruct (addr_range m k a (mi_cap _ _ H) Ha) as [Hac Hcell].
  set (m' := mkHmap _ _ _ _ _).
  assert (Hst : forall k2 b, k2 <> m_nothing m -> stops m k2 b = false -> stops m' k2 b = false).
  { intros k2 b Hk2. unfold stops, m'. cbn [m_key m_nothing]. unfold upd.
    destruct (Nat.eqb_spec b a) as [->|]; [|trivial]. intros Hf.
    destruct Hcell as [E|E]; rewrite E in Hf.
    - rewrite Z.eqb_refl in Hf. discriminate.
    - exact Hf. }
  constructor.
  - exact (mi_cap _ _ H).
  - unfold sentinel, m'. cbn [m_key m_cap m_nothing]. rewrite upd_neq by lia. exact (mi_sent _ _ H).
  - intros b Hb Hnn. unfold m' in Hb, Hnn |- *. cbn [m_key m_cap m_nothing] in *.
    destruct (Nat.eq_dec b a) as [->|Hne].
    + rewrite upd_eq. fold m'. change (find (stops m' k) (order m k) = Some a). eapply find_change; [exact Ha| |].
      * unfold stops, m'. cbn [m_key]. rewrite upd_eq, Z.eqb_refl. apply orb_true_r.
      * intros x Hx. apply Hst; assumption.
    + rewrite upd_neq in * by exact Hne. fold m'.
      change (find (stops m' (m_key m b)) (order m (m_key m b)) = Some b).
      eapply find_change; [exact (mi_probe _ _ H b Hb Hnn)| |].
      * unfold stops, m'. cbn [m_key]. rewrite upd_neq by exact Hne. rewrite Z.eqb_refl. apply orb_true_r.
      * intros x Hx. apply Hst; assumption.
  - intros b Hb Hnn. unfold m' in Hb, Hnn |- *. cbn [m_key m_cap m_nothing m_val] in *.
    destruct (Nat.eq_dec b a) as [->|Hne].
    + rewrite !upd_eq. rewrite latest_app, Z.eqb_refl. reflexivity.
    + rewrite !upd_neq in * by exact Hne. rewrite latest_app.
      destruct (Z.eqb_spec (m_key m b) k) as [E|E]; [|exact (mi_val _ _ H b Hb Hnn)].
      exfalso. pose proof (mi_probe _ _ H b Hb Hnn) as Hp. rewrite E, Ha in Hp. congruence.
  - intros q. rewrite map_app, in_app_iff. cbn [map fst In]. rewrite (mi_keys _ _ H q).
    unfold m'. cbn [m_key m_cap m_nothing]. split.
    + intros [(b & Hb & E & Hq)|[E|[]]].
      * exists b. split; [exact Hb|]. split; [|exact Hq]. unfold upd. destruct (Nat.eqb_spec b a) as [->|]; [|exact E].
        destruct Hcell as [E'|E']; congruence.
      * exists a. subst q. rewrite upd_eq. split; [exact Hac|]. split; [reflexivity|exact Hk].
    + intros (b & Hb & E & Hq). destruct (Nat.eq_dec b a) as [->|Hne].
      * rewrite upd_eq in E. right; left; exact E.
      * rewrite upd_neq in E by exact Hne. left. exists b. repeat split; assumption.
Qed.

Lemma stored_nodup m kvs : minv m kvs -> (forall a, a < m_cap m -> m_key m a <> m_nothing m) ->
  NoDup (map (m_key m) (seq 0 (m_cap m))).
Proof.
  intros H Hfull.
  assert (K : forall l, NoDup l -> (forall a, In a l -> a < m_cap m) -> NoDup (map (m_key m) l)).
  { induction l as [|a l IH]; intros Hnd Hl; [constructor|]. cbn [map]. apply NoDup_cons_iff in Hnd as [Ha Hnd].
    constructor; [|apply IH; [exact Hnd|intros; apply Hl; right; assumption]].
    intros Hin. apply in_map_iff in Hin as (b & E & Hb).
    pose proof (mi_probe _ _ H a (Hl a (or_introl eq_refl)) (Hfull a (Hl a (or_introl eq_refl)))) as Pa.
    pose proof (mi_probe _ _ H b (Hl b (or_intror Hb)) (Hfull b (Hl b (or_intror Hb)))) as Pb.
    rewrite E, Pa in Pb. injection Pb as ->. contradiction. }
  apply K; [apply seq_NoDup|]. intros a Ha. apply in_seq in Ha. lia.
Qed.

Lemma room m kvs k : minv m kvs -> k <> m_nothing m -> length (keys (kvs ++ [(k, 0%Z)])) <= m_cap m ->
  exists a, addr m k = Some a.
Proof.
  intros H Hk Hlen. destruct (addr m k) as [a|] eqn:E; [exists a; reflexivity|]. exfalso.
  pose proof (addr_none m k E) as Hn.
  assert (Hnd : NoDup (k :: map (m_key m) (seq 0 (m_cap m)))).
  { constructor; [|apply (stored_nodup m kvs H); intros a Ha; apply Hn; exact Ha].
    intros Hin. apply in_map_iff in Hin as (a & Ea & Ha). apply in_seq in Ha. destruct (Hn a ltac:(lia)). contradiction. }
  assert (Hincl : incl (k :: map (m_key m) (seq 0 (m_cap m))) (keys (kvs ++ [(k, 0%Z)]))).
  { intros q Hq. unfold keys. apply nodup_In. rewrite map_app, in_app_iff. destruct Hq as [<-|Hq].
    - right; left; reflexivity.
    - left. apply in_map_iff in Hq as (a & <- & Ha). apply in_seq in Ha. apply (mi_keys _ _ H).
      exists a. destruct (Hn a ltac:(lia)). repeat split; [lia|assumption]. }
  apply NoDup_incl_length in Hincl; [|exact Hnd]. cbn [length] in Hincl. rewrite map_length, seq_length in Hincl. lia.
Qed.

Lemma keys_mono kvs kvs' : incl (map fst kvs) (map fst kvs') -> length (keys kvs) <= length (keys kvs').
Proof.
  intros H. apply NoDup_incl_length; [apply NoDup_nodup|]. intros x Hx. unfold keys in *.
  apply nodup_In in Hx. apply nodup_In. apply H; exact Hx.
Qed.

Lemma puts_ok : forall kvs m done, minv m done -> Forall (fun kv => fst kv <> m_nothing m) kvs ->
  length (keys (done ++ kvs)) <= m_cap m ->
  exists m', hm_puts hash m kvs = Ok m' /\ minv m' (done ++ kvs) /\ m_cap m' = m_cap m /\ m_nothing m' = m_nothing m.
Proof.
  induction kvs as [|[k v] r IH]; intros m done H Hf Hl.
  - exists m. rewrite app_nil_r. repeat split; apply H.
  - apply Forall_cons_iff in Hf as [Hk Hf]. cbn [fst] in Hk. cbn [hm_puts]. unfold hm_put.
    destruct (Z.eqb_spec k (m_nothing m)); [contradiction|].
    rewrite addr_ok by apply H. cbn [bind].
    destruct (room m done k H Hk) as (a & Ea).
    { etransitivity; [|exact Hl]. apply keys_mono. intros x. rewrite !map_app, !in_app_iff. cbn [map fst In]. tauto. }
    rewrite Ea. cbn [bind]. pose proof (put_inv m done k v a H Hk Ea) as H'.
    destruct (IH _ _ H') as (m' & E & Hi & Hc & Hn).
    + exact Hf.
    + rewrite <- app_assoc. exact Hl.
    + exists m'. rewrite <- app_assoc in Hi. repeat split; try assumption; apply Hi.
Qed.

Lemma get_ok m kvs k : minv m kvs -> In k (map fst kvs) -> k <> m_nothing m -> hm_get hash m k = Ok (latest k kvs).
Proof.
  intros H Hin Hk. unfold hm_get. destruct (Z.eqb_spec k (m_nothing m)); [contradiction|].
  rewrite addr_ok by apply H. cbn [bind]. apply (mi_keys _ _ H) in Hin as (a & Ha & Ek & _).
  rewrite <- Ek. rewrite (mi_probe _ _ H a Ha ltac:(congruence)). f_equal.
  apply (mi_val _ _ H); [exact Ha|congruence].
Qed.

Lemma new_inv cap nothing : 1 <= cap -> minv (hm_new cap nothing) [].
Proof.
  intros Hc. constructor; cbn [hm_new m_cap m_key m_nothing m_val].
  - exact Hc.
  - reflexivity.
  - intros a _ Hn. contradiction.
  - intros a _ Hn. contradiction.
  - intros k. split; [intros []|]. intros (a & _ & E & Hn). congruence.
Qed.

Lemma occupied_keys m kvs : minv m kvs -> occupied m = length (keys kvs).
Proof.
  intros H. unfold occupied. set (l := filter _ _).
  assert (Hl : forall a, In a l <-> a < m_cap m /\ m_key m a <> m_nothing m).
  { intros a. unfold l. rewrite filter_In, in_seq. destruct (Z.eqb_spec (m_key m a) (m_nothing m)); cbn; intuition (try congruence; lia). }
  rewrite <- (map_length (m_key m)).
  assert (Hnd : NoDup (map (m_key m) l)).
  { assert (Hndl : NoDup l) by (apply NoDup_filter, seq_NoDup). clearbody l.
    assert (Hsub : forall a, In a l -> a < m_cap m /\ m_key m a <> m_nothing m) by (intros a Ha; apply Hl; exact Ha). clear Hl.
    induction l as [|a l IH]; [constructor|]. cbn [map]. apply NoDup_cons_iff in Hndl as [Ha Hndl].
    constructor; [|apply IH; [exact Hndl|intros; apply Hsub; right; assumption]].
    intros Hin. apply in_map_iff in Hin as (b & E & Hb).
    destruct (Hsub a (or_introl eq_refl)) as [A1 A2]. destruct (Hsub b (or_intror Hb)) as [B1 B2].
    pose proof (mi_probe _ _ H a A1 A2) as Pa. pose proof (mi_probe _ _ H b B1 B2) as Pb.
    rewrite E, Pa in Pb. injection Pb as ->. contradiction. }
  apply Nat.le_antisymm; apply NoDup_incl_length; try assumption; try apply NoDup_nodup.
  - intros q Hq. apply in_map_iff in Hq as (a & <- & Ha). apply Hl in Ha as [A1 A2].
    apply nodup_In. apply (mi_keys _ _ H). exists a. repeat split; assumption.
  - intros q Hq. apply nodup_In in Hq. apply (mi_keys _ _ H) in Hq as (a & A1 & A2 & A3).
    rewrite <- A2. apply in_map. apply Hl. split; [exact A1|congruence].
Qed.
End P.
