(** Proofs about joining a federation. *)
From Verif Require Import Base CText Net NetSpec NetProofs Admission Duet DuetSpec DuetProofs Join JoinSpec.
Local Open Scope Z_scope.

Lemma c_string_id b : Forall (fun x => 0 < x < 256) b -> c_string b = b.
Proof. induction 1 as [|x b H _ IH]; [reflexivity|]. cbn [c_string]. destruct (Z.eqb_spec x 0); [lia|]. rewrite IH. reflexivity. Qed.
Lemma strn_prefix : forall k a, strn_eqb (length (firstn k a)) a (firstn k a) = true.
Proof. induction k as [|k IH]; intros [|x a]; try reflexivity. cbn [firstn length strn_eqb]. rewrite Z.eqb_refl. apply IH. Qed.
Lemma forall_firstn {A} (P : A -> Prop) : forall k l, Forall P l -> Forall P (firstn k l).
Proof. induction k as [|k IH]; intros l H; [constructor|]. destruct H; [constructor|]. cbn [firstn]. constructor; [assumption|apply IH; assumption]. Qed.
Lemma int64_len t : length (encode_int64 t) = 8%nat.
Proof. reflexivity. Qed.

(** ** Reading the neighbors back. *)
Definition enc_up (us : list (Z * Z)) : list Z := flat_map (fun u => encode_uint16 (fst u) ++ encode_int64 (snd u)) us.
Definition enc_down (ds : list Z) : list Z := flat_map encode_uint16 ds.
Lemma enc_up_len us : length (enc_up us) = (10 * length us)%nat.
Proof. induction us as [|u us IH]; [reflexivity|]. cbn [enc_up flat_map]. unfold enc_up in IH. rewrite !app_length, IH, encode_uint16_len, encode_int64_len. cbn [length]. lia. Qed.
Lemma enc_down_len ds : length (enc_down ds) = (2 * length ds)%nat.
Proof. induction ds as [|d ds IH]; [reflexivity|]. cbn [enc_down flat_map]. unfold enc_down in IH. rewrite !app_length, IH, encode_uint16_len. cbn [length]. lia. Qed.
Lemma read_up big post : forall us pre, Forall (fun u => in_uint16 (fst u) /\ in_int64 (snd u)) us ->
  read_upstream big (pre ++ enc_up us ++ post) (length pre) (length us) = Ok us.
Proof.
  induction us as [|[i d] us IH]; intros pre H; [reflexivity|]. inversion H as [|? ? [Hi Hd] Hus]; subst. cbn [fst snd] in *. cbn [length read_upstream].
  unfold enc_up. cbn [flat_map fst snd]. fold (enc_up us).
  assert (E1 : pre ++ ((encode_uint16 i ++ encode_int64 d) ++ enc_up us) ++ post = pre ++ encode_uint16 i ++ (encode_int64 d ++ enc_up us ++ post)) by (rewrite <- !app_assoc; reflexivity).
  assert (E2 : pre ++ ((encode_uint16 i ++ encode_int64 d) ++ enc_up us) ++ post = (pre ++ encode_uint16 i) ++ encode_int64 d ++ (enc_up us ++ post)) by (rewrite <- !app_assoc; reflexivity).
  assert (E3 : pre ++ ((encode_uint16 i ++ encode_int64 d) ++ enc_up us) ++ post = (pre ++ encode_uint16 i ++ encode_int64 d) ++ enc_up us ++ post) by (rewrite <- !app_assoc; reflexivity).
  rewrite E1 at 1. rewrite extract_uint16_at by assumption. cbn [bind].
  assert (L2 : (length pre + 2)%nat = length (pre ++ encode_uint16 i)) by (rewrite app_length, encode_uint16_len; reflexivity).
  rewrite L2, E2 at 1. rewrite extract_int64_at by assumption. cbn [bind].
  assert (L3 : (length pre + 10)%nat = length (pre ++ encode_uint16 i ++ encode_int64 d)) by (rewrite !app_length, encode_uint16_len, encode_int64_len; reflexivity).
  rewrite L3, E3. rewrite IH by assumption. reflexivity.
Qed.
Lemma read_down big post : forall ds pre, Forall in_uint16 ds -> read_downstream big (pre ++ enc_down ds ++ post) (length pre) (length ds) = Ok ds.
Proof.
  induction ds as [|d ds IH]; intros pre H; [reflexivity|]. inversion H; subst. cbn [length read_downstream]. unfold enc_down. cbn [flat_map]. fold (enc_down ds).
  assert (E1 : pre ++ (encode_uint16 d ++ enc_down ds) ++ post = pre ++ encode_uint16 d ++ (enc_down ds ++ post)) by (rewrite <- !app_assoc; reflexivity).
  assert (E2 : pre ++ (encode_uint16 d ++ enc_down ds) ++ post = (pre ++ encode_uint16 d) ++ enc_down ds ++ post) by (rewrite <- !app_assoc; reflexivity).
  rewrite E1 at 1. rewrite extract_uint16_at by assumption. cbn [bind].
  assert (L2 : (length pre + 2)%nat = length (pre ++ encode_uint16 d)) by (rewrite app_length, encode_uint16_len; reflexivity).
  rewrite L2, E2. rewrite IH by assumption. reflexivity.
Qed.
Lemma extract16_head big x v post : in_uint16 v -> extract_uint16 big (x :: encode_uint16 v ++ post) 1 = Ok v.
Proof. intros H. apply (extract_uint16_at big [x] post v H). Qed.
Lemma extract64_head big x v : in_int64 v -> extract_int64 big (x :: encode_int64 v) 1 = Ok v.
Proof. intros H. rewrite <- (app_nil_r (encode_int64 v)). apply (extract_int64_at big [x] [] v H). Qed.

(** ** The conversation up to the UDP port. *)
Lemma hello_read f c : can_talk f c -> forall u v fin,
  goes (mkDuet (fed_rest f) (rti_neighbors c (f_id f)) u v) fin -> u = [] -> v = [] -> goes (meet (fed_join f) (rti_join c)) fin.
Proof.
  intros J u v fin G -> ->. unfold meet, fed_join. apply one_sends. apply one_sends. cbn [app].
  set (id := firstn 255 (f_federation f)).
  assert (LI : (length id <= 255)%nat) by (subst id; rewrite firstn_length; lia).
  change (MSG_TYPE_FED_IDS :: encode_uint16 (Z.of_nat (f_id f)) ++ [Z.of_nat (length id)] ++ id) with
    (MSG_TYPE_FED_IDS :: encode_uint16 (Z.of_nat (f_id f)) ++ [Z.of_nat (length id)] ++ id).
  assert (SH : (MSG_TYPE_FED_IDS :: encode_uint16 (Z.of_nat (f_id f)) ++ [Z.of_nat (length id)]) ++ id = (MSG_TYPE_FED_IDS :: encode_uint16 (Z.of_nat (f_id f)) ++ [Z.of_nat (length id)]) ++ (id ++ [])) by (rewrite app_nil_r; reflexivity).
  unfold rti_join. match goal with |- goes (mkDuet ?p ?q ?u ?v) _ => replace u with ((MSG_TYPE_FED_IDS :: encode_uint16 (Z.of_nat (f_id f)) ++ [Z.of_nat (length id)]) ++ (id ++ [])) by (rewrite app_nil_r; reflexivity) end.
  apply two_reads; [reflexivity|].
  assert (IU : in_uint16 (Z.of_nat (f_id f))) by (unfold in_uint16; pose proof (J_range f c J); pose proof (J_nodes f c J); lia).
  rewrite (extract16_head (c_big c) MSG_TYPE_FED_IDS (Z.of_nat (f_id f)) [Z.of_nat (length id)] IU).
  change (nth 0 (MSG_TYPE_FED_IDS :: encode_uint16 (Z.of_nat (f_id f)) ++ [Z.of_nat (length id)]) 0) with MSG_TYPE_FED_IDS.
  change (nth 3 (MSG_TYPE_FED_IDS :: encode_uint16 (Z.of_nat (f_id f)) ++ [Z.of_nat (length id)]) 0) with (Z.of_nat (length id)).
  rewrite Z.eqb_refl. cbn [negb]. apply two_reads; [rewrite Nat2Z.id; reflexivity|].
  unfold check_fed_id. cbn [m_type m_id m_fed]. rewrite Z.eqb_refl. cbn [negb].
  rewrite c_string_id by (apply forall_firstn; apply (J_string f c J)). rewrite (J_id f c J). subst id. rewrite strn_prefix. cbn [negb].
  rewrite Nat2Z.id. rewrite (proj2 (Nat.leb_gt _ _)) by apply (J_range f c J). rewrite (J_free f c J). cbn [snd].
  apply two_sends. cbn [app]. apply (one_reads [MSG_TYPE_ACK] 1 _ _ _ [] []); [reflexivity|]. exact G.
Qed.
Lemma neighbors_read f c : can_talk f c -> forall fin,
  goes (mkDuet (fed_sync f (match f_mode f with ModeOff => O | _ => f_exchanges f end) []) (rti_udp c (f_id f) (f_upstream f) (f_downstream f))
    (MSG_TYPE_UDP_PORT :: encode_uint16 (udp_port (f_mode f))) []) fin ->
  goes (mkDuet (fed_rest f) (rti_neighbors c (f_id f)) [] []) fin.
Proof.
  intros J fin G. unfold fed_rest. apply one_sends. apply one_sends. cbn [app]. unfold neighbor_structure, rti_neighbors.
  set (us := f_upstream f) in *. set (ds := f_downstream f) in *. fold (enc_up us). fold (enc_down ds).
  set (head := MSG_TYPE_NEIGHBOR_STRUCTURE :: encode_int32 (Z.of_nat (length us)) ++ encode_int32 (Z.of_nat (length ds))).
  set (next := MSG_TYPE_UDP_PORT :: encode_uint16 (udp_port (f_mode f))).
  match goal with |- goes (mkDuet ?p ?q ?u ?v) _ => replace u with (head ++ ((enc_up us ++ enc_down ds) ++ next)) by (subst head; cbn [app]; rewrite <- !app_assoc; reflexivity) end.
  apply two_reads; [reflexivity|]. change (nth 0 head 0) with MSG_TYPE_NEIGHBOR_STRUCTURE. rewrite Z.eqb_refl. cbn [negb].
  pose proof (J_counts f c J) as [CU CD]. fold us in CU. fold ds in CD. pose proof (J_memory f c J) as MEM. fold us in MEM. fold ds in MEM.
  assert (E1 : extract_int32 (c_big c) head 1 = Ok (Z.of_nat (length us))).
  { apply (extract_int32_at (c_big c) [MSG_TYPE_NEIGHBOR_STRUCTURE] (encode_int32 (Z.of_nat (length ds)))). unfold in_int32. lia. }
  assert (E2 : extract_int32 (c_big c) head 5 = Ok (Z.of_nat (length ds))).
  { assert (head = (MSG_TYPE_NEIGHBOR_STRUCTURE :: encode_int32 (Z.of_nat (length us))) ++ encode_int32 (Z.of_nat (length ds)) ++ []) as -> by (rewrite app_nil_r; reflexivity).
    apply (extract_int32_at (c_big c) (MSG_TYPE_NEIGHBOR_STRUCTURE :: encode_int32 (Z.of_nat (length us))) []). unfold in_int32. lia. }
  rewrite E1, E2. cbn [bind].
  assert (SZ : (10 * Z.of_nat (length us) + 2 * Z.of_nat (length ds)) mod two64 = 10 * Z.of_nat (length us) + 2 * Z.of_nat (length ds)) by (apply Z.mod_small; unfold two64; lia).
  rewrite SZ.
  assert ((c_memory c <? 10 * Z.of_nat (length us) + 2 * Z.of_nat (length ds)) = false) as -> by (apply Z.ltb_ge; lia).
  assert ((c_memory c <? 8 * Z.of_nat (length us)) = false) as -> by (apply Z.ltb_ge; lia).
  assert ((c_memory c <? 2 * Z.of_nat (length ds)) = false) as -> by (apply Z.ltb_ge; lia). cbn [orb].
  destruct (Z.eqb_spec (10 * Z.of_nat (length us) + 2 * Z.of_nat (length ds)) 0) as [Z0|NZ].
  - assert (U0 : us = []) by (destruct us; [reflexivity|cbn [length] in Z0; lia]). assert (D0 : ds = []) by (destruct ds; [reflexivity|cbn [length] in Z0; lia]).
    rewrite U0, D0 in *. exact G.
  - apply two_reads.
    + rewrite app_length, enc_up_len, enc_down_len. lia.
    + rewrite !Nat2Z.id.
      assert (RU : read_upstream (c_big c) (enc_up us ++ enc_down ds) 0 (length us) = Ok us) by (apply (read_up (c_big c) (enc_down ds) us []); apply (J_up f c J)).
      rewrite RU. cbn [bind].
      assert (RD : read_downstream (c_big c) (enc_up us ++ enc_down ds) (10 * length us) (length ds) = Ok ds).
      { pose proof (read_down (c_big c) [] ds (enc_up us) (J_down f c J)) as X. rewrite app_nil_r in X. rewrite enc_up_len in X. exact X. }
      rewrite RD. cbn [bind]. exact G.
Qed.
Lemma upto f c : can_talk f c -> forall fin,
  goes (mkDuet (fed_sync f (match f_mode f with ModeOff => O | _ => f_exchanges f end) []) (rti_udp c (f_id f) (f_upstream f) (f_downstream f))
    (MSG_TYPE_UDP_PORT :: encode_uint16 (udp_port (f_mode f))) []) fin ->
  goes (meet (fed_join f) (rti_join c)) fin.
Proof. intros J fin G. apply (hello_read f c J [] []); [|reflexivity|reflexivity]. apply neighbors_read; assumption. Qed.

(** ** The exchanges. *)
Lemma sync_both f fed after : forall times extra seen fin, Forall (fun t => in_int64 (fst t) /\ in_int64 (snd t)) times ->
  goes (mkDuet (fed_sync f extra (rev times ++ seen)) after [] []) fin ->
  goes (mkDuet (fed_sync f (length times + extra) seen) (rti_sync times fed after) [] []) fin.
Proof.
  induction times as [|[t1 t4] times IH]; intros extra seen fin H G; [exact G|]. inversion H as [|? ? [H1 H4] Ht]; subst. cbn [fst snd] in *.
  cbn [length Nat.add fed_sync rti_sync]. apply two_sends. cbn [app].
  apply (one_reads (MSG_TYPE_CLOCK_SYNC_T1 :: encode_int64 t1) 9 _ _ _ [] []); [reflexivity|].
  change (nth 0 (MSG_TYPE_CLOCK_SYNC_T1 :: encode_int64 t1) 0) with MSG_TYPE_CLOCK_SYNC_T1. rewrite Z.eqb_refl. cbn [negb].
  apply one_sends. cbn [app]. apply (two_reads (MSG_TYPE_CLOCK_SYNC_T3 :: encode_int32 (Z.of_nat (f_id f))) 5 _ _ _ [] []); [reflexivity|].
  change (nth 0 (MSG_TYPE_CLOCK_SYNC_T3 :: encode_int32 (Z.of_nat (f_id f))) 0) with MSG_TYPE_CLOCK_SYNC_T3. rewrite Z.eqb_refl.
  apply two_sends. cbn [app]. apply (one_reads (MSG_TYPE_CLOCK_SYNC_T4 :: encode_int64 t4) 9 _ _ _ [] []); [reflexivity|].
  change (nth 0 (MSG_TYPE_CLOCK_SYNC_T4 :: encode_int64 t4) 0) with MSG_TYPE_CLOCK_SYNC_T4. rewrite Z.eqb_refl. cbn [negb].
  rewrite !extract64_head by assumption. cbn [bind]. apply IH; [assumption|]. cbn [rev] in G. rewrite <- app_assoc in G. exact G.
Qed.
Lemma sync_end f (q : proc rti_end) seen fin : goes (mkDuet (Over false (Joined (rev seen))) q (proposal f) []) fin -> goes (mkDuet (fed_sync f 0 seen) q [] []) fin.
Proof. intros G. cbn [fed_sync]. apply one_sends. exact G. Qed.

(** ** The end of the conversation. *)
Definition stored (f : federate) (c : coordinator) : node_info :=
  match c_status c with
  | StatusOn => mkNode (f_id f) (f_upstream f) (f_downstream f) true (if 0 <? udp_port (f_mode f) then Some (udp_port (f_mode f)) else None)
  | _ => mkNode (f_id f) (f_upstream f) (f_downstream f) false None
  end.
Lemma says_stored f c : says f (stored f c).
Proof. unfold says, stored. destruct (c_status c); repeat split. Qed.
Lemma udp_read f c (p : proc fed_end) fin : can_talk f c ->
  goes (mkDuet p (if (match c_status c with StatusOff => true | _ => false end) || (udp_port (f_mode f) =? UINT16_MAX)
                  then Over false (Admitted (stored f c)) else rti_sync (c_times c) (f_id f) (Over false (Admitted (stored f c)))) [] []) fin ->
  goes (mkDuet p (rti_udp c (f_id f) (f_upstream f) (f_downstream f)) (MSG_TYPE_UDP_PORT :: encode_uint16 (udp_port (f_mode f))) []) fin.
Proof.
  intros J G. unfold rti_udp. apply (two_reads (MSG_TYPE_UDP_PORT :: encode_uint16 (udp_port (f_mode f))) 3 _ _ _ [] []); [reflexivity|].
  change (nth 0 (MSG_TYPE_UDP_PORT :: encode_uint16 (udp_port (f_mode f))) 0) with MSG_TYPE_UDP_PORT. rewrite Z.eqb_refl. cbn [negb].
  assert (X : extract_uint16 (c_big c) (MSG_TYPE_UDP_PORT :: encode_uint16 (udp_port (f_mode f))) 1 = Ok (udp_port (f_mode f))).
  { pose proof (extract16_head (c_big c) MSG_TYPE_UDP_PORT (udp_port (f_mode f)) [] (J_port f c J)) as X. rewrite app_nil_r in X. exact X. }
  rewrite X. unfold stored in G. destruct (c_status c); cbn [orb] in G; exact G.
Qed.
Lemma join_goes f c : can_talk f c -> agree f c ->
  goes (meet (fed_join f) (rti_join c))
    (mkDuet (Over false (Joined (match f_mode f with ModeOff => [] | _ => c_times c end))) (Over false (Admitted (stored f c))) (proposal f) []).
Proof.
  intros J A. apply (upto f c J). apply (udp_read f c _ _ J).
  assert (S0 : forall q fin, goes (mkDuet (Over false (Joined (c_times c))) q (proposal f) []) fin ->
     goes (mkDuet (fed_sync f (length (c_times c)) []) (rti_sync (c_times c) (f_id f) q) [] []) fin).
  { intros q fin G. pose proof (sync_both f (f_id f) q (c_times c) 0 [] fin (J_times f c J)) as X. rewrite Nat.add_0_r in X. apply X.
    apply sync_end. rewrite app_nil_r, rev_involutive. exact G. }
  unfold agree in A. destruct (f_mode f) as [| |p] eqn:MO; cbn [udp_port].
  - rewrite Z.eqb_refl, orb_true_r. apply sync_end. apply goes_refl.
  - destruct A as [A1 ->]. destruct (c_status c); [contradiction| |]; cbn [orb]; apply S0; apply goes_refl.
  - destruct A as (A1 & -> & A2). destruct (Z.eqb_spec p UINT16_MAX) as [e|ne]; [unfold UINT16_MAX in e; lia|].
    destruct (c_status c); [contradiction| |]; cbn [orb]; apply S0; apply goes_refl.
Qed.
Lemma join_ends f c : can_talk f c -> agree f c ->
  always_ends (meet (fed_join f) (rti_join c))
    (mkDuet (Over false (Joined (match f_mode f with ModeOff => [] | _ => c_times c end))) (Over false (Admitted (stored f c))) (proposal f) []).
Proof. intros J A. apply goes_ends; [|apply stuck_over]. apply join_goes; assumption. Qed.
(** The coordinator makes fewer exchanges than the federate waits for. *)
Lemma fewer_ends f c q times extra : goes (meet (fed_join f) (rti_join c)) (mkDuet (fed_sync f (length times + S extra) []) (rti_sync times (f_id f) (Over false q)) [] []) ->
  Forall (fun t => in_int64 (fst t) /\ in_int64 (snd t)) times ->
  exists fin, always_ends (meet (fed_join f) (rti_join c)) fin /\ waits (one fin) /\ two fin = Over false q /\ to_one fin = [].
Proof.
  intros G T. eexists. split; [|split; [|split]].
  - apply goes_ends.
    + eapply goes_trans; [exact G|]. apply (sync_both f (f_id f) (Over false q) times (S extra) [] _ T). apply goes_refl.
    + cbn [fed_sync]. apply stuck_wait. cbn [length]. lia.
  - exact Logic.I.
  - reflexivity.
  - reflexivity.
Qed.
(** The coordinator makes more exchanges than the federate. *)
Lemma more_ends f c q times x rest : goes (meet (fed_join f) (rti_join c)) (mkDuet (fed_sync f (length times) []) (rti_sync (times ++ x :: rest) (f_id f) q) [] []) ->
  Forall (fun t => in_int64 (fst t) /\ in_int64 (snd t)) times ->
  exists fin, always_ends (meet (fed_join f) (rti_join c)) fin /\ one fin = Over false (Joined times) /\ two fin = Over true (Stranded (f_id f)).
Proof.
  intros G T. destruct x as [t1 t4]. eexists. split; [|split].
  - apply goes_ends.
    + eapply goes_trans; [exact G|].
      assert (SP : forall times, rti_sync (times ++ (t1, t4) :: rest) (f_id f) q = rti_sync times (f_id f) (rti_sync ((t1, t4) :: rest) (f_id f) q)).
      { clear. induction times as [|[a b] l IH]; [reflexivity|]. cbn [app rti_sync] in *. rewrite IH. reflexivity. }
      rewrite SP. pose proof (sync_both f (f_id f) (rti_sync ((t1, t4) :: rest) (f_id f) q) times 0 []) as X. rewrite Nat.add_0_r in X. apply X; [exact T|]. clear X.
      rewrite app_nil_r. apply sync_end. rewrite rev_involutive. cbn [rti_sync]. apply two_sends.
      assert (PP : proposal f = firstn 5 (proposal f) ++ skipn 5 (proposal f)) by (symmetry; apply firstn_skipn). rewrite PP.
      apply two_reads; [reflexivity|]. change (nth 0 (firstn 5 (proposal f)) 0) with MSG_TYPE_TIMESTAMP. cbn [Z.eqb MSG_TYPE_TIMESTAMP MSG_TYPE_CLOCK_SYNC_T3].
      unfold reject_with. apply two_sends. apply goes_refl.
    + apply stuck_over.
  - reflexivity.
  - reflexivity.
Qed.
Lemma rejected_ends f c w : Z.of_nat (f_id f) < 65536 ->
  snd (check_fed_id (c_rti c) (mkFirst MSG_TYPE_FED_IDS (f_id f) (Some (firstn 255 (f_federation f)))) true) = Reject w ->
  exists fin, always_ends (meet (fed_join f) (rti_join c)) fin /\ one fin = Over true (Again (Some (reject_code w))) /\ two fin = Over true (TurnedDown w).
Proof.
  intros L R. eexists. split; [|split].
  - apply goes_ends.
    + unfold meet, fed_join. apply one_sends. apply one_sends. cbn [app].
      set (id := firstn 255 (f_federation f)) in *.
      unfold rti_join. match goal with |- goes (mkDuet ?p ?q ?u ?v) _ => replace u with ((MSG_TYPE_FED_IDS :: encode_uint16 (Z.of_nat (f_id f)) ++ [Z.of_nat (length id)]) ++ (id ++ [])) by (rewrite app_nil_r; reflexivity) end.
      apply two_reads; [reflexivity|].
      assert (IU : in_uint16 (Z.of_nat (f_id f))) by (unfold in_uint16; lia).
      rewrite (extract16_head (c_big c) MSG_TYPE_FED_IDS (Z.of_nat (f_id f)) [Z.of_nat (length id)] IU).
      change (nth 0 (MSG_TYPE_FED_IDS :: encode_uint16 (Z.of_nat (f_id f)) ++ [Z.of_nat (length id)]) 0) with MSG_TYPE_FED_IDS.
      change (nth 3 (MSG_TYPE_FED_IDS :: encode_uint16 (Z.of_nat (f_id f)) ++ [Z.of_nat (length id)]) 0) with (Z.of_nat (length id)).
      rewrite Z.eqb_refl. cbn [negb]. apply two_reads; [rewrite Nat2Z.id; reflexivity|]. rewrite Nat2Z.id, R.
      unfold reject_with. apply two_sends. cbn [app]. apply (one_reads [MSG_TYPE_REJECT] 1 _ _ _ [] [reject_code w]); [reflexivity|].
      cbn [nth]. rewrite Z.eqb_refl. apply (one_reads [reject_code w] 1 _ _ _ [] []); [reflexivity|]. apply goes_refl.
    + apply stuck_over.
  - reflexivity.
  - reflexivity.
Qed.

(** ** Ports. *)
Lemma next_range p : 15045 <= p < 15061 -> 15045 <= next_port p < 15061.
Proof. intros H. unfold next_port, DEFAULT_PORT, MAX_NUM_PORT_ADDRESSES. rewrite Z.mod_small by lia. destruct (Z.leb_spec (15045 + 16) (p + 1)); lia. Qed.
Lemma attempt_search : forall i p, 15045 <= p < 15061 -> attempt_port p true i = 15045 + (p - 15045 + Z.of_nat i) mod 16.
Proof.
  induction i as [|i IH]; intros p H.
  - cbn [attempt_port]. rewrite Z.add_0_r, Z.mod_small by lia. lia.
  - cbn [attempt_port]. rewrite IH by (apply next_range; assumption). unfold next_port, DEFAULT_PORT, MAX_NUM_PORT_ADDRESSES. rewrite (Z.mod_small (p + 1)) by lia.
    destruct (Z.leb_spec (15045 + 16) (p + 1)) as [L|L].
    + assert (p = 15060) by lia. subst p. f_equal. rewrite Nat2Z.inj_succ. rewrite Z.sub_diag, Z.add_0_l.
      replace (15060 - 15045 + Z.succ (Z.of_nat i)) with (Z.of_nat i + 1 * 16) by lia. rewrite Z_mod_plus_full. reflexivity.
    + f_equal. f_equal. lia.
Qed.
Lemma attempt_fixed : forall i p, attempt_port p false i = p.
Proof. induction i as [|i IH]; intros p; cbn [attempt_port]; [reflexivity|apply IH]. Qed.
Lemma bind_range free : forall more i p, 15045 <= p < 15061 -> forall q, bind_port free false p i more = Some q -> 15045 <= q < 15061.
Proof.
  induction more as [|more IH]; intros i p H q; cbn [bind_port]; destruct (free i p); try (intros E; injection E as <-; assumption); [discriminate|].
  apply IH. apply next_range. assumption.
Qed.
Lemma bind_fixed free : forall more i p q, bind_port free true p i more = Some q -> q = p.
Proof. induction more as [|more IH]; intros i p q; cbn [bind_port]; destruct (free i p); try (intros E; congruence). apply IH. Qed.
Lemma bind_finds free q : forall more i p, 15045 <= p < 15061 -> (forall j, free j q = true) -> (exists k, (k <= more)%nat /\ attempt_port p true k = q) -> bind_port free false p i more <> None.
Proof.
  induction more as [|more IH]; intros i p H F (k & L & E); cbn [bind_port].
  - assert (k = 0)%nat by lia. subst k. cbn [attempt_port] in E. subst q. rewrite F. discriminate.
  - destruct (free i p) eqn:FP; [discriminate|]. destruct k as [|k]; [cbn [attempt_port] in E; subst q; rewrite F in FP; discriminate|].
    apply IH; [apply next_range; assumption|assumption|]. exists k. split; [lia|exact E].
Qed.

Lemma strn_iff : forall b a, strn_eqb (length b) a b = true <-> prefix b a.
Proof.
  induction b as [|x b IH]; intros a; cbn [length strn_eqb].
  - split; [intros _; exists a; reflexivity|reflexivity].
  - destruct a as [|y a].
    + split; [discriminate|intros (r & E); discriminate].
    + rewrite andb_true_iff, IH, Z.eqb_eq. split.
      * intros (-> & r & ->). exists r. reflexivity.
      * intros (r & E). injection E as -> ->. split; [reflexivity|exists r; reflexivity].
Qed.
Lemma refusal_check f c w : Forall (fun x => 0 < x < 256) (f_federation f) -> refusal f c w ->
  snd (check_fed_id (c_rti c) (mkFirst MSG_TYPE_FED_IDS (f_id f) (Some (firstn 255 (f_federation f)))) true) = Reject w.
Proof.
  intros P R. unfold check_fed_id. cbn [m_type m_fed m_id]. rewrite Z.eqb_refl. cbn [negb].
  rewrite (c_string_id (firstn 255 (f_federation f))) by (apply forall_firstn; assumption).
  pose proof (strn_iff (firstn 255 (f_federation f)) (federation_id (c_rti c))) as X.
  destruct R as [N|Y L|Y L C].
  - destruct (strn_eqb _ _ _); [destruct N; apply X; reflexivity|]. reflexivity.
  - apply X in Y. rewrite Y. cbn [negb]. destruct (Nat.leb_spec (nodes (c_rti c)) (f_id f)); [reflexivity|lia].
  - apply X in Y. rewrite Y. cbn [negb]. destruct (Nat.leb_spec (nodes (c_rti c)) (f_id f)); [lia|]. rewrite C. reflexivity.
Qed.
