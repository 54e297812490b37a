(** C39: the coordinator's minimum-delay table. *)
From Verif Require Import Base Tag TagSpec TagProofs Pqueue RtiDelays RtiDelaysSpec RtiDelaysProofs.
Open Scope Z_scope.

(** ** C39.  The computation ends without the internal error; an upstream node is in the table iff some path from
    it has a delay below FOREVER, and its entry is the delay of such a path and at most that of every other. *)
Theorem C39_table : forall tp connected node, topo_ok tp -> (node < tp_n tp)%nat ->
  exists table zdc cycle, compute_delays tp connected node = Delays table zdc cycle /\
  NoDup (map fst table) /\
  (forall k, (exists D, In (k, D) table) <-> exists ds, upstream_path tp connected k ds node /\ path_time ds < FOREVER) /\
  (forall k D, In (k, D) table ->
     (exists ds, upstream_path tp connected k ds node /\ path_time ds < FOREVER /\ D = path_delay ds) /\
     (forall ds, upstream_path tp connected k ds node -> path_time ds < FOREVER -> tag_le D (path_delay ds))).
Proof.
  intros tp connected node Ht Hn. destruct (compute_ok tp connected node Ht Hn) as (s & G & R & E). eexists _, _, _. split; [exact E|].
  assert (T : forall k D, In (k, D) (map (fun i => (i, d_path s i)) (filter (fun i => finiteb (d_path s i)) (seq 0 (tp_n tp)))) <-> (k < tp_n tp)%nat /\ finiteb (d_path s k) = true /\ D = d_path s k).
  { intros k D. rewrite in_map_iff. split.
    - intros (i & H & Hi). injection H as -> <-. apply filter_In in Hi. destruct Hi as (Hi & Hf). apply in_seq in Hi. repeat split; [lia|exact Hf].
    - intros (H1 & H2 & ->). exists k. split; [reflexivity|]. apply filter_In. split; [apply in_seq; lia|exact H2]. }
  assert (A : forall k, finiteb (d_path s k) = true -> exists ds, upstream_path tp connected k ds node /\ path_time ds < FOREVER /\ d_path s k = path_delay ds).
  { intros k F. destruct (g_att _ _ _ s G k) as [K|(ds & P & K & H & _)]; [rewrite K in F; discriminate|exists ds; auto]. }
  split; [|split].
  - rewrite map_map. cbn [fst]. rewrite map_id. apply NoDup_filter, seq_NoDup.
  - intros k. split.
    + intros (D & H). apply T in H. destruct H as (_ & F & _). destruct (A k F) as (ds & P & H & _). eauto.
    + intros (ds & P & H). exists (d_path s k). apply T. split; [eapply path_source_range; eassumption|]. split; [|reflexivity].
      pose proof (relaxed_path tp connected node Ht Hn s G R k ds P H) as L. unfold finiteb. apply Z.ltb_lt.
      assert (K : tag_lt (d_path s k) FOREVER_TAG). { eapply tag_le_lt_trans; [exact L|]. unfold path_delay, tag_lt, FOREVER_TAG. cbn [ttime]. lia. }
      apply tag_compare_lt in K. lia.
  - intros k D H. apply T in H. destruct H as (_ & F & ->). split; [apply A, F|]. intros ds P H. eapply relaxed_path; eassumption.
Qed.
Print Assumptions C39_table.

(** The flags: in a cycle, and in a cycle of connections without delay (negative numbers encode "no delay"). *)
Theorem C39_flags : forall tp connected node table zdc cycle, topo_ok tp -> (node < tp_n tp)%nat ->
  compute_delays tp connected node = Delays table zdc cycle ->
  (cycle = true <-> exists ds, upstream_path tp connected node ds node /\ path_time ds < FOREVER) /\
  (zdc = true <-> exists ds, upstream_path tp connected node ds node /\ forall d, In d ds -> d < 0).
Proof.
  intros tp connected node table zdc cycle Ht Hn E0. destruct (compute_ok tp connected node Ht Hn) as (s & G & R & E). rewrite E in E0. injection E0 as _ <- <-.
  assert (Z0 : forall ds, (forall d, In d ds -> d < 0) -> path_delay ds = ZERO_TAG).
  { unfold path_delay, ZERO_TAG. induction ds as [|d ds IH]; intros H; [reflexivity|]. cbn [path_time path_micro]. specialize (IH (fun x Hx => H x (or_intror Hx))). injection IH as E1 E2.
    pose proof (H d (or_introl eq_refl)). rewrite E1, E2. replace (d =? 0) with false by lia. cbn [andb]. f_equal. lia. }
  assert (Z1 : forall ds, path_delay ds = ZERO_TAG -> forall d, In d ds -> d < 0).
  { unfold path_delay, ZERO_TAG. induction ds as [|d ds IH]; intros H x Hx; [destruct Hx|]. injection H as H1 H2. cbn [path_time path_micro] in *. pose proof (path_time_nonneg ds). pose proof (path_micro_bound ds).
    assert (E1 : path_time ds = 0) by lia. rewrite E1 in *. destruct (d =? 0) eqn:C; cbn [andb Z.eqb] in H2; [lia|]. destruct Hx as [<-|Hx]; [lia|]. apply IH; [f_equal; lia|exact Hx]. }
  split.
  - rewrite (g_cycle _ _ _ s G). split.
    + intros K. destruct (g_att _ _ _ s G node) as [K2|(ds & P & _ & H & _)]; [contradiction|eauto].
    + intros (ds & P & H) K. pose proof (relaxed_path tp connected node Ht Hn s G R node ds P H) as L. rewrite K in L. unfold path_delay, tag_le, tag_lt, FOREVER_TAG in L. cbn [ttime tmicro] in L. lia.
  - rewrite (g_zdc _ _ _ s G). split.
    + intros K. destruct (g_att _ _ _ s G node) as [K2|(ds & P & K2 & H & _)]; [rewrite K in K2; discriminate|]. exists ds. split; [exact P|]. apply Z1. congruence.
    + intros (ds & P & H). pose proof (Z0 ds H) as Hz. assert (Ht0 : path_time ds < FOREVER) by (injection Hz as -> _; reflexivity).
      pose proof (relaxed_path tp connected node Ht Hn s G R node ds P Ht0) as L. rewrite Hz in L. destruct (good_ok _ _ _ Ht s node G) as ((Hk1 & Hk2) & Hk3).
      apply tag_eq; unfold ZERO_TAG, tag_le, tag_lt in *; cbn [ttime tmicro] in *; unfold in_uint32 in *; lia.
Qed.
Print Assumptions C39_flags.

(** Four nodes: 0 -> 1 -> 2 -> 3 with delays 5, none and one microstep, 2 -> 1 without delay, 0 -> 3 with delay 7;
    then node 1 is disconnected. *)
Definition ex_topo : topo :=
  mkTopo 4 (fun i => match i with 1%nat => [(0%nat, 5); (2%nat, NEVER)] | 2%nat => [(1%nat, NEVER)] | 3%nat => [(2%nat, 0); (0%nat, 7)] | _ => [] end)
           (fun i => match i with 0%nat => [1; 3]%nat | 1%nat => [2%nat] | 2%nat => [1; 3]%nat | _ => [] end).
Lemma ex_topo_ok : topo_ok ex_topo.
Proof.
  split; [|reflexivity]. intros i u d H. do 4 (destruct i as [|i]; [cbn in H; repeat (destruct H as [H|H]; [injection H as <- <-; split; [cbn; lia|vm_compute; intuition discriminate]|]); destruct H|]). destruct H.
Qed.
Example C39_ex :
  compute_delays ex_topo (fun _ => true) 3 = Delays [(0%nat, mkTag 5 1); (1%nat, mkTag 0 1); (2%nat, mkTag 0 1)] false false /\
  compute_delays ex_topo (fun _ => true) 1 = Delays [(0%nat, mkTag 5 0); (1%nat, mkTag 0 0); (2%nat, mkTag 0 0)] true true /\
  compute_delays ex_topo (fun i => negb (i =? 1)%nat) 3 = Delays [(0%nat, mkTag 7 0); (1%nat, mkTag 0 1); (2%nat, mkTag 0 1)] false false.
Proof. vm_compute. auto. Qed.
