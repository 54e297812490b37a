(** C84: the direct connections between federates. *)
From Verif Require Import Base CText Net Admission Peers PeersSpec PeersProofs.
Local Open Scope Z_scope.

(** Three federates, the first two on one host.  Federates 0 and 2 connect to 1, and
    1 connects to 0. *)
Definition ex_reach (h : nat) (a : list Z) : option nat :=
  match a with
  | [127; 0; 0; 1] => Some h
  | [10; 0; 0; x] => Some (Z.to_nat x)
  | _ => None
  end.
Definition ex_static : static :=
  mkStatic 3 (fun f => Nat.eqb f 1) true [76; 70] (fun f => if (f <? 2)%nat then 7 else 8)%nat
    (fun f => if (f <? 2)%nat then [10; 0; 0; 7] else [10; 0; 0; 8]) ex_reach
    (fun f => match f with 0 => [1] | 1 => [0] | 2 => [1] | _ => [] end)%nat
    (fun f => match f with 0 => 1 | 1 => 2 | _ => 0 end)%nat.
Lemma ex_federation : federation ex_static /\ routed ex_static.
Proof.
  split; [split|].
  - cbn. lia.
  - intros [|[|[|f]]] g; cbn; intros H; repeat (destruct H as [<-|H]; [lia|]); contradiction.
  - intros [|[|[|f]]]; cbn; repeat constructor; intros [].
  - split; [discriminate|]. repeat constructor; lia.
  - intros [|[|[|f]]] g; cbn; intros H; repeat (destruct H as [<-|H]; [reflexivity|]); contradiction.
Qed.
Definition ex_ops : list op :=
  [ Serve 0 15045; Serve 1 15045; Serve 1 15046; Query 2; RtiRead 2; FedRead 2; RtiRead 0; RtiRead 1;
    Query 0; Query 2; RtiRead 2; RtiRead 0; FedRead 0; FedRead 2; Connect 0; Stranger 1 [71; 69; 84; 32; 47];
    Connect 2; Accept 1; Accept 1; FedAck 2; Accept 1; FedAck 2; FedAck 0; Query 1; RtiRead 1; FedRead 1; Connect 1; Accept 0; FedAck 1 ].
Lemma ex_harmless : Forall (harmless ex_static) ex_ops /\ Forall patient ex_ops.
Proof. split; unfold ex_ops; repeat (constructor; [cbn; try exact Logic.I; right; left; discriminate|]); constructor. Qed.

(** Whatever the order of the steps of federates, coordinator and network, and whatever
    other programs send to the servers that is not of this federation: nothing is read
    or written out of bounds, and the socket that [f] stored for [g] is the connection
    that [g] stored for [f], made by [f] to the server of [g] and acknowledged. *)
Theorem C84_links_partial s os : federation s -> routed s -> Forall (harmless s) os ->
  exists st, run s os (start s) = Ok st /\
    forall f g c, outbound st f g = Some c ->
      inbound st g f = Some c /\ In g (peers s f) /\
      exists k, nth_error (conns st) c = Some k /\ client k = Some f /\ server k = g /\ answered k = Some true.
Proof.
  intros F R H. destruct (run_inv s F R os (start s) H (inv_start s F)) as (st & E & V). exists st. split; [exact E|].
  intros f g c X. destruct (links s st f g c V X) as [I K]. split; [exact I|]. split; [|exact K]. apply (inbound_real s st f g c V I).
Qed.
Print Assumptions C84_links_partial.
Example C84_links_ex : exists st, run ex_static ex_ops (start ex_static) = Ok st /\
  outbound st 0 1 = Some 0%nat /\ inbound st 1 0 = Some 0%nat /\ outbound st 2 1 = Some 2%nat /\ inbound st 1 2 = Some 2%nat /\
  outbound st 1 0 = Some 3%nat /\ inbound st 0 1 = Some 3%nat /\ finished st 0 /\ finished st 1 /\ finished st 2 /\ sport (feds st 1) = Some 15046.
Proof. eexists. split; [vm_compute; reflexivity|]. vm_compute. repeat split. Qed.

(** What a server stored for [f] is a connection that [f] made to it, for each of the
    federates once. *)
Theorem C84_inbound_partial s os st : federation s -> routed s -> Forall (harmless s) os -> run s os (start s) = Ok st ->
  (forall f g c, inbound st g f = Some c -> In g (peers s f) /\
    exists k, nth_error (conns st) c = Some k /\ client k = Some f /\ server k = g) /\
  (forall g, (length (ins (feds st g)) <= length (connecting s g))%nat).
Proof.
  intros F R H E. destruct (run_inv s F R os (start s) H (inv_start s F)) as (st' & E' & V). assert (st' = st) by congruence. subst st'.
  split; [intros f g c X; apply (inbound_real s st f g c V X)|]. intros g. apply (server_bounded s st g F V).
Qed.
Print Assumptions C84_inbound_partial.

(** A federate whose calls have all returned, none of them by giving up, has a socket
    for each of its peers. *)
Theorem C84_complete_partial s os st : federation s -> routed s -> Forall (harmless s) os -> Forall patient os ->
  run s os (start s) = Ok st -> forall f, finished st f -> forall g, In g (peers s f) -> exists c, outbound st f g = Some c.
Proof.
  intros F R H P E f [_ D] g I. apply has_lookup.
  pose proof (kept_run s os (start s) st P E (kept_start s) f g I) as K. rewrite D, app_nil_r in K. exact K.
Qed.
Print Assumptions C84_complete_partial.

(** The thread of a server that waits for as many connections as there are federates
    that connect to it ends with one from each of them. *)
Theorem C84_server_partial s os st g : federation s -> routed s -> Forall (harmless s) os -> run s os (start s) = Ok st ->
  expected s g = length (connecting s g) -> (expected s g <= length (ins (feds st g)))%nat ->
  forall f, In g (peers s f) -> exists c, inbound st g f = Some c.
Proof.
  intros F R H E X L. destruct (run_inv s F R os (start s) H (inv_start s F)) as (st' & E' & V). assert (st' = st) by congruence. subst st'.
  apply (server_full s st g F V). lia.
Qed.
Print Assumptions C84_server_partial.
Example C84_server_ex : expected ex_static 1 = length (connecting ex_static 1) /\ connecting ex_static 1 = [0; 2]%nat /\
  exists st, run ex_static ex_ops (start ex_static) = Ok st /\ length (ins (feds st 1)) = 2%nat.
Proof. split; [reflexivity|]. split; [reflexivity|]. eexists. split; [vm_compute; reflexivity|reflexivity]. Qed.

(** The address and port that a federate connects to are those of the server of the
    peer that it asked for, and a federate does not end for a port out of range. *)
Theorem C84_address_partial s os st f : federation s -> routed s -> Forall (harmless s) os -> run s os (start s) = Ok st ->
  (forall a p, ph (feds st f) = Connecting a p ->
    exists g r, todo (feds st f) = g :: r /\ a = addr s g /\ sport (feds st g) = Some p /\ listener s st (host s g) p = Some g) /\
  ph (feds st f) <> Exited.
Proof.
  intros F R H E. destruct (run_inv s F R os (start s) H (inv_start s F)) as (st' & E' & V). assert (st' = st) by congruence. subst st'.
  split; [|apply (V_exit s st V f)]. intros a p PH. destruct (V_conn s st V f a p PH) as (g & r & T & A & S0). exists g, r.
  split; [exact T|]. split; [exact A|]. split; [exact S0|].
  destruct (listener s st (host s g) p) as [g'|] eqn:L.
  - destruct (listener_some _ _ _ _ _ L) as (_ & HG & SG). f_equal. apply (V_uniq s st V g' g p); assumption.
  - exfalso. apply (listener_none _ _ _ _ L g); [apply (V_port s st V g p S0)|reflexivity|exact S0].
Qed.
Print Assumptions C84_address_partial.
Example C84_address_ex : exists st, run ex_static (firstn 14 ex_ops) (start ex_static) = Ok st /\
  ph (feds st 2) = Connecting [10; 0; 0; 7] 15046.
Proof. eexists. split; [vm_compute; reflexivity|reflexivity]. Qed.

(** A peer that never advertises a port, or refuses every connection, is given up after
    at most 241 attempts; and no socket of a connection is stored then. *)
Theorem C84_gives_up_partial t0 :
  (forall asserts l, Forall (fun q => q_port q = -1) l -> spaced q_now t0 l -> ask asserts t0 l = StillAsking -> (length l <= 241)%nat) /\
  (forall l, Forall (fun c => c_connects c = false) l -> spaced c_now t0 l ->
    match connect_loop t0 0 l with
    | StillConnecting k => (length l <= 241)%nat
    | Stored _ connected _ => connected = false
    | ExitSocket => False
    | Returns _ => True
    end).
Proof.
  assert (G : 0 < ADDRESS_QUERY_RETRY_INTERVAL) by reflexivity.
  split.
  - intros b l Q N A. pose proof (ask_bounded b t0 _ G l (t0 - ADDRESS_QUERY_RETRY_INTERVAL) Q) as X.
    destruct X as [X| ->]; [|assumption| |cbn; lia]; [|unfold ADDRESS_QUERY_RETRY_INTERVAL, CONNECT_TIMEOUT in X; lia].
    intros i q E. specialize (N i q E). lia.
  - intros l C N. pose proof (connect_bounded t0 _ G l 0%nat (t0 - ADDRESS_QUERY_RETRY_INTERVAL) C) as X.
    destruct (connect_loop t0 0 l) as [y1 y5 y2|y3| |y4]; try exact Logic.I.
    + destruct y5; [|reflexivity]. exfalso. apply X. intros i q E. specialize (N i q E). lia.
    + apply X. intros i q E. specialize (N i q E). lia.
    + destruct X as [X| ->]; [|unfold ADDRESS_QUERY_RETRY_INTERVAL, CONNECT_TIMEOUT in X; lia|cbn; lia]. intros i q E. specialize (N i q E). lia.
Qed.
Print Assumptions C84_gives_up_partial.
Example C84_gives_up_ex :
  let l := map (fun i => mkPass false false None (5 + Z.of_nat i * 250000001) false) (seq 0 300) in
  Forall (fun c => c_connects c = false) l /\ spaced c_now 5 l /\ connect_loop 5 0 l = Returns 241.
Proof.
  cbv zeta. split; [apply Forall_forall; intros c I; apply in_map_iff in I; destruct I as (i & <- & _); reflexivity|]. split; [|vm_compute; reflexivity].
  intros i c E. rewrite nth_error_map in E. destruct (nth_error (seq 0 300) i) as [j|] eqn:EJ; [|discriminate]. cbn [option_map] in E.
  assert (L : (i < 300)%nat) by (rewrite <- (seq_length 300 0); apply nth_error_Some; congruence).
  assert (j = i). { pose proof (nth_error_nth _ _ 0%nat EJ) as X. rewrite seq_nth in X by assumption. lia. }
  assert (c = mkPass false false None (5 + Z.of_nat i * 250000001) false) by congruence. subst c. cbn [c_now]. unfold ADDRESS_QUERY_RETRY_INTERVAL. lia.
Qed.

(** *** What fails. *)
(** The coordinator hands out the address it saw: for a federate on its own host that is
    127.0.0.1, and a federate on another host then connects to itself, takes the
    connection for one to its peer, and its own server takes it for one from a peer. *)
Theorem C84_loopback_refuted : exists s os st k, federation s /\ Forall (harmless s) os /\ run s os (start s) = Ok st /\
  host s 0 <> host s 1 /\ ~ In 1%nat (peers s 1) /\
  outbound st 1 0 = Some 0%nat /\ nth_error (conns st) 0 = Some k /\ server k = 1%nat /\ inbound st 1 1 = Some 0%nat /\ inbound st 0 1 = None /\ finished st 1.
Proof.
  exists (mkStatic 2 (fun _ => false) false [76; 70] (fun f => f) (fun f => match f with O => [127; 0; 0; 1] | _ => [10; 0; 0; 1] end) ex_reach
    (fun f => match f with 0 => [1] | 1 => [0] | _ => [] end)%nat (fun _ => 1%nat)),
    [Serve 0 15045; Serve 1 15045; RtiRead 0; RtiRead 1; Query 1; RtiRead 1; FedRead 1; Connect 1; Accept 1; FedAck 1].
  eexists. eexists. split; [split|].
  - cbn. lia.
  - intros [|[|f]] g; cbn; intros H; repeat (destruct H as [<-|H]; [lia|]); contradiction.
  - intros [|[|f]]; cbn; repeat constructor; intros [].
  - split; [discriminate|]. repeat constructor; lia.
  - split; [repeat constructor|]. split; [vm_compute; reflexivity|]. split; [discriminate|]. split; [cbn; intros [X|[]]; discriminate|].
    split; [reflexivity|]. split; [reflexivity|]. split; [reflexivity|]. split; [reflexivity|]. split; [reflexivity|]. split; reflexivity.
Qed.
Print Assumptions C84_loopback_refuted.
(** A program that knows the federation id can take the place of a federate; the server
    then never accepts the federate itself. *)
Theorem C84_impostor_refuted : exists os st k, federation ex_static /\ routed ex_static /\ run ex_static os (start ex_static) = Ok st /\
  inbound st 0 1 = Some 0%nat /\ nth_error (conns st) 0 = Some k /\ client k = None /\
  (exists a p c, ph (feds st 1) = Shaking a p c) /\ step ex_static (Accept 0) st = Ok st.
Proof.
  exists [Serve 0 15045; RtiRead 0; Stranger 0 (hello ex_static 1); Query 1; RtiRead 1; FedRead 1; Accept 0; Connect 1; Accept 0].
  eexists. eexists. split; [apply ex_federation|]. split; [apply ex_federation|]. split; [vm_compute; reflexivity|].
  split; [reflexivity|]. split; [reflexivity|]. split; [reflexivity|]. split; [eexists; eexists; eexists; reflexivity|vm_compute; reflexivity].
Qed.
Print Assumptions C84_impostor_refuted.
(** After the timeout for connecting the function returns like any other time: the
    federate goes on without the connection. *)
Theorem C84_soft_error_refuted : exists os st, federation ex_static /\ routed ex_static /\ Forall (harmless ex_static) os /\
  run ex_static os (start ex_static) = Ok st /\ finished st 1 /\ In 0%nat (peers ex_static 1) /\ outbound st 1 0 = None.
Proof.
  exists [Serve 0 15045; RtiRead 0; Query 1; RtiRead 1; FedRead 1; GiveUp 1]. eexists.
  split; [apply ex_federation|]. split; [apply ex_federation|]. split; [repeat constructor|]. split; [vm_compute; reflexivity|].
  split; [split; reflexivity|]. split; [left; reflexivity|reflexivity].
Qed.
Print Assumptions C84_soft_error_refuted.
(** A peer that rejects is asked again at once, with no pause and no timeout, and every
    attempt leaves a socket open. *)
Theorem C84_reject_refuted t0 m : exists l, length l = m /\
  Forall (fun c => c_connects c = true /\ c_answer c = Some false /\ t0 + CONNECT_TIMEOUT < c_now c) l /\
  connect_loop t0 0 l = StillConnecting m.
Proof.
  exists (repeat (mkPass false true (Some false) (t0 + CONNECT_TIMEOUT + 1) false) m). split; [apply repeat_length|]. split.
  - apply Forall_forall. intros c I. apply repeat_spec in I. subst c. split; [reflexivity|]. split; [reflexivity|]. cbn [c_now]. lia.
  - rewrite rejected_forever by reflexivity. reflexivity.
Qed.
Print Assumptions C84_reject_refuted.
(** A termination while the port is not yet known is an assertion failure, or without
    assertions a connection to port 65535; and one before the connection, or a failing
    coordinator, stores a socket that is not connected. *)
Theorem C84_terminated_refuted t0 t1 :
  ask true t0 [mkQuery false true (-1) t0; mkQuery true true 0 t1] = AssertFails /\
  ask false t0 [mkQuery false true (-1) t0; mkQuery true true 0 t1] = Port 65535 /\
  connect_loop t0 0 [mkPass false false None t0 true] = Stored (Some 0%nat) false 1 /\
  connect_loop t0 0 [mkPass false false None t0 false; mkPass true false None t1 false] = Stored (Some 0%nat) false 1.
Proof.
  cbn [ask connect_loop q_terminated q_type q_port q_now c_terminated c_connects c_now c_rti_failed negb].
  assert ((t0 + CONNECT_TIMEOUT <? t0) = false) as -> by (apply Z.ltb_ge; unfold CONNECT_TIMEOUT; lia). repeat split; reflexivity.
Qed.
Print Assumptions C84_terminated_refuted.
