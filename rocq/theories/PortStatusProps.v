(** The status of network input ports: properties C52, C53, C57, C61 and C62. *)
From Verif Require Import Base Tag TagSpec TagProofs RtiProofs PortStatus PortStatusSpec PortStatusProofs.
Open Scope Z_scope.

(** C52: whatever messages, absences, grants, ends of connections and advances of
    the tag have been handled, the maximum level allowed to advance is at most
    the level of every input whose status is unknown at the current tag, is
    unlimited exactly if there is none, and is otherwise the level of one of
    them.  [ok_run] asks for representable tags, for an advance to a tag from the
    start tag on, and for grants that are not older than the last one. *)
Theorem C52_mlaa dec start l ops s :
  NEVER < start < FOREVER -> Forall port_ok l ->
  ok_run dec start (boot dec start l) ops -> run dec start (boot dec start l) ops = Some s ->
  mlaa_right dec start s.
Proof.
  intros Hs Hl Ho E.
  destruct (run_inv dec start (proj1 Hs) ops (boot dec start l) s) as (_ & _ & H); try assumption.
  apply boot_inv; [apply Hs| |apply Hs|assumption]. unfold in_int64, NEVER, FOREVER in *. lia.
Qed.

(** C52: a level is entered only if it is below the level of every input whose
    status is unknown. *)
Theorem C52_stall dec start l ops s lv :
  NEVER < start < FOREVER -> Forall port_ok l ->
  ok_run dec start (boot dec start l) ops -> run dec start (boot dec start l) ops = Some s ->
  may_enter s lv = true -> forall p, In p (ports s) -> unknown dec start s p -> lv < level p.
Proof.
  intros Hs Hl Ho E Hm p Hp Hu. destruct (C52_mlaa dec start l ops s Hs Hl Ho E) as (A & _).
  specialize (A p Hp Hu). unfold may_enter in Hm. apply negb_true_iff, Z.leb_gt in Hm. lia.
Qed.

(** A federate with two inputs, one with a delay of 10; the coordinator has
    granted (105,0) provisionally. *)
Definition ex_ports : list port :=
  [ mkPort NEVER_TAG false 3 NEVER true 1; mkPort NEVER_TAG false 5 10 true 2 ].
Definition ex_ops : list op :=
  [ OTag (mkTag 100 0); OPtag (mkTag 105 0); OAdvance (mkTag 105 0); OAbsent 0 (mkTag 105 0) ].

Example C52_ex_ok : Forall port_ok ex_ports.
Proof. repeat constructor; vm_compute; congruence. Qed.
Example C52_ex_run : ok_run false 100 (boot false 100 ex_ports) ex_ops /\
  exists s, run false 100 (boot false 100 ex_ports) ex_ops = Some s /\ mlaa s = 5.
Proof.
  split; [|eexists; split; [vm_compute; reflexivity|reflexivity]].
  cbn -[tag_ok tag_le]. repeat split; try (tag_consts; lia).
Qed.
Example C52_ex_decentralized :
  option_map mlaa (run true 100 (boot true 100 ex_ports) [OAdvance (mkTag 105 0)]) = Some 3
  /\ option_map mlaa (run true 100 (boot true 100 ex_ports) [OAdvance (mkTag 105 0); OAbsent 0 (mkTag 105 0)]) = Some INT_MAX
  /\ option_map mlaa (run true 100 (boot true 100 ex_ports) [OAdvance (mkTag 110 0); OAbsent 0 (mkTag 110 0)]) = Some 5.
Proof. vm_compute. auto. Qed.

(** Without fresh grants the second half fails: a TAG older than the last grant
    is ignored only after the level has been recomputed with it, and the level
    then holds back an input that the last grant has settled. *)
Definition stale_ops : list op := [ OPtag (mkTag 110 0); OAdvance (mkTag 105 0); OTag (mkTag 101 0) ].
Theorem C52_stale_refuted : exists l ops s,
  Forall port_ok l /\ Forall (op_ok 100) ops /\ run false 100 (boot false 100 l) ops = Some s /\
  (forall p, In p (ports s) -> ~ unknown false 100 s p) /\ mlaa s = 3.
Proof.
  exists ex_ports, stale_ops. eexists. split; [apply C52_ex_ok|]. split.
  - repeat constructor; vm_compute; congruence.
  - split; [vm_compute; reflexivity|]. split; [|reflexivity].
    intros p Hp (_ & _ & _ & N). apply N. left. vm_compute. left. reflexivity.
Qed.

(** C53: in any history, from any state, one step never decreases the tag up to
    which the status of a port is known, unless the microstep of that tag is
    already the largest one. *)
Theorem C53_step dec start s o s' i a :
  step dec start s o = Some s' -> known_at s i = Some a -> tag_ok a -> tmicro a < UINT_MAX ->
  exists b, known_at s' i = Some b /\ tag_le a b.
Proof.
  intros E Ha Oa Hm. destruct (step_effect dec start s o s' i a E Ha) as (b & Hb & Eb).
  exists b. split; [exact Hb|]. eapply effect_le; eassumption.
Qed.

(** C53: the tag granted last never decreases either: late grants are ignored, and
    a late provisional grant ends the program. *)
Theorem C53_grants dec start ops s s' : tag_ok (last_grant s) -> (forall t, In (OTag t) ops \/ In (OPtag t) ops -> tag_ok t) ->
  run dec start s ops = Some s' -> tag_le (last_grant s) (last_grant s').
Proof.
  assert (M : forall s t b, last_grant (update_max_level dec start s t b) = last_grant s).
  { intros s0 t b. unfold update_max_level. now repeat case_if. }
  assert (U : forall s t i s1, update_port dec start s t i = Some s1 -> last_grant s1 = last_grant s).
  { intros s0 t i s1. unfold update_port. destruct (nth_error (ports s0) i); [|discriminate]. cbn zeta. destruct (0 <=? _); intros [= <-]; [rewrite M; reflexivity|reflexivity]. }
  assert (G : forall f l k s s1, gone_from dec start s f l k = Some s1 -> last_grant s1 = last_grant s).
  { intros f l. induction l as [|p l IHl]; intros k s0 s1; cbn [gone_from]; [now intros [= <-]|]. destruct (Nat.eqb (source p) f); [|apply IHl].
    destruct (update_port dec start s0 FOREVER_TAG k) as [s2|] eqn:E2; [|discriminate]. intros E1. rewrite <- (U _ _ _ _ E2). exact (IHl _ _ _ E1). }
  revert s. induction ops as [|o ops IH]; intros s Hs Ho E; cbn [run] in E; [injection E as <-; apply tag_le_refl|].
  destruct (step dec start s o) as [s1|] eqn:E1; [|discriminate].
  assert (K : tag_le (last_grant s) (last_grant s1) /\ tag_ok (last_grant s1)).
  { destruct o as [t|t|i t|i t|i t|i|f|t]; cbn [step] in E1.
    - assert (Ht : tag_ok t) by (apply Ho; left; left; reflexivity).
      assert (L : last_grant (update_all dec start s t) = last_grant s) by (unfold update_all; repeat case_if; rewrite ?M; reflexivity).
      destruct (0 <=? tag_compare t (last_grant (update_all dec start s t))) eqn:C; injection E1 as <-.
      + rewrite L in C. apply cmp_ge0 in C. cbn. split; assumption.
      + rewrite L. split; [apply tag_le_refl|exact Hs].
    - assert (Ht : tag_ok t) by (apply Ho; right; left; reflexivity).
      destruct (tag_compare t (last_grant s) <? 0) eqn:C; [discriminate|]. cbn [orb] in E1. destruct (_ && _); [discriminate|]. injection E1 as <-.
      rewrite M. cbn. apply cmp_lt0_false in C. split; assumption.
    - apply U in E1. rewrite E1. split; [apply tag_le_refl|exact Hs].
    - destruct (nth_error (ports s) i); [|discriminate]. apply U in E1. rewrite E1. split; [apply tag_le_refl|exact Hs].
    - apply U in E1. rewrite E1. split; [apply tag_le_refl|exact Hs].
    - destruct dec; [apply U in E1; rewrite E1|injection E1 as <-]; (split; [apply tag_le_refl|exact Hs]).
    - enough (last_grant s1 = last_grant s) as -> by (split; [apply tag_le_refl|exact Hs]). unfold gone in E1. destruct dec; [|now injection E1 as <-]. apply G in E1. exact E1.
    - injection E1 as <-. rewrite M. cbn. split; [apply tag_le_refl|exact Hs]. }
  destruct K as [K1 K2]. eapply tag_le_trans; [exact K1|]. apply IH; [exact K2| |exact E]. intros t [H|H]; apply Ho; [left|right]; right; exact H.
Qed.

(** C53: over a whole history in which no microstep can overflow and the end of
    each connection is seen once, the known tag never decreases, between any two
    moments. *)
Theorem C53_monotone dec start l ops1 ops2 s1 s2 i a :
  let ops := ops1 ++ ops2 in
  let n := Z.of_nat (length ops) in
  NEVER < start < FOREVER -> n < UINT_MAX ->
  Forall port_ok l -> Forall (fun p => room n (known p)) l ->
  Forall (op_ok start) ops -> Forall (op_room dec n) ops -> NoDup (gones ops) ->
  run dec start (boot dec start l) ops1 = Some s1 -> run dec start s1 ops2 = Some s2 ->
  known_at s1 i = Some a -> exists b, known_at s2 i = Some b /\ tag_le a b.
Proof.
  intros ops n Hs Hn Hl Hr Ho Hor Hd E1 E2 Ha.
  assert (I : rinv dec n (gones ops) (boot dec start l)).
  { split; [|split; [|split]].
    - cbn. unfold tag_ok. cbn. unfold in_int64, in_uint32, NEVER, FOREVER, UINT_MAX in *. lia.
    - cbn [boot cur update_max_level set_mlaa tmicro]. lia.
    - cbn. lia.
    - intros j b Hb. unfold known_at in Hb. cbn [boot update_max_level set_mlaa ports] in Hb.
      destruct (nth_error l j) as [p|] eqn:Hj; [|discriminate]. apply nth_error_In in Hj. injection Hb as <-.
      rewrite Forall_forall in Hl, Hr. split; [now destruct (Hl p Hj)|]. left. apply (Hr p Hj). }
  destruct (run_rinv_prefix dec start ops1 ops2 _ s1 I Ho Hor Hd E1) as (I1 & R1 & D1).
  eapply run_rinv; try eassumption. apply Forall_app in Ho. apply Ho.
Qed.

Example C53_ex :
  let ops1 := [OAdvance (mkTag 105 0); OMessageNow 0 (mkTag 105 0)] in
  let ops2 := [OMessageLater 0 (mkTag 103 0); OAssumeAbsent 1; OGone 1] in
  let ops := ops1 ++ ops2 in
  Forall (op_ok 100) ops /\ Forall (op_room true 5) ops /\ NoDup (gones ops) /\
  Forall (fun p => room 5 (known p)) ex_ports /\
  option_map (fun s => known_at s 0) (run true 100 (boot true 100 ex_ports) ops1) = Some (Some (mkTag 105 0)) /\
  option_map (fun s => known_at s 0) (run true 100 (boot true 100 ex_ports) (ops1 ++ [OMessageLater 0 (mkTag 103 0)])) = Some (Some (mkTag 105 1)) /\
  option_map (fun s => known_at s 0) (run true 100 (boot true 100 ex_ports) ops) = Some (Some FOREVER_TAG).
Proof.
  cbn zeta. split; [repeat constructor; vm_compute; auto; congruence|].
  split; [repeat constructor; vm_compute; auto; congruence|].
  split; [repeat constructor; intros []|].
  split; [repeat constructor; vm_compute; auto; congruence|].
  split; [|split]; vm_compute; reflexivity.
Qed.

Example C53_grants_ex :
  option_map last_grant (run false 100 (boot false 100 ex_ports) [OTag (mkTag 105 0); OTag (mkTag 103 0); OPtag (mkTag 106 1)]) = Some (mkTag 106 1) /\
  run false 100 (boot false 100 ex_ports) [OTag (mkTag 105 0); OPtag (mkTag 103 0)] = None.
Proof. split; vm_compute; reflexivity. Qed.

(** C53 without these conditions is false: the end of a connection seen twice
    (or a message at the last microstep of a time) wraps the microstep, and the
    known tag decreases. *)
Theorem C53_wrap_refuted : exists dec start s o s' i a b,
  step dec start s o = Some s' /\ known_at s i = Some a /\ known_at s' i = Some b /\ tag_lt b a.
Proof.
  exists true, 100, (mkFed [mkPort FOREVER_TAG false 3 NEVER false 1] (mkTag 100 0) NEVER_TAG false INT_MAX), (OGone 1).
  do 1 eexists. exists 0%nat. do 2 eexists. split; [vm_compute; reflexivity|]. split; [reflexivity|]. split; [reflexivity|].
  right. vm_compute. auto.
Qed.

(** C62: a port becomes known up to a tag only if something that arrived says so,
    or because a message came too late and is moved to the next microstep after
    the current tag or after what is known; or, and this is what is missing,
    because the federate was told again what it already knew, which adds one
    microstep that nobody spoke of. *)
Theorem C62_told_partial dec start s o s' i a b :
  step dec start s o = Some s' -> known_at s i = Some a -> known_at s' i = Some b -> a <> b ->
  tag_ok (cur s) -> tmicro (cur s) < UINT_MAX -> tag_ok a -> tmicro a < UINT_MAX ->
  told dec s o i b \/
  (exists j t, o = OMessageLater j t /\ j = i /\ tag_le t (cur s) /\ (b = next (cur s) \/ b = next a)) \/
  (told dec s o i a /\ b = next a).
Proof.
  intros E Ha Hb Hne Oc Mc Oa Ma. destruct (step_effect dec start s o s' i a E Ha) as (b' & Hb' & Eb).
  rewrite Hb in Hb'. injection Hb' as <-. destruct Eb as [Eb|Eb]; [congruence|].
  assert (A : forall t, b = absorb t a -> b = t \/ (t = a /\ b = next a)).
  { intros t ->. unfold absorb in *. case_if; [congruence|]. case_if; [|now left].
    match goal with H : (_ =? 0) = true |- _ => apply cmp_eq0 in H; subst t end. right. split; [reflexivity|].
    unfold next. rewrite Z.mod_small; [reflexivity|]. tag_consts; lia. }
  assert (L : forall t c, later t c = t \/ later t c = c) by (intros; unfold later; case_if; auto).
  destruct o; cbn [told] in *; try contradiction.
  - subst b. left. destruct (L t a) as [K|K]; [exact K|congruence].
  - destruct Eb as [<- Eb]. destruct (L t (cur s)) as [K|K]; rewrite K in Eb; destruct (A _ Eb) as [->|[-> ->]]; auto 6.
  - destruct Eb as (<- & p & Hp & Eb).
    assert (Kp : known p = a) by (unfold known_at in Ha; rewrite Hp in Ha; now injection Ha).
    unfold actual_tag in Eb. destruct (dec && (tag_compare t (cur s) <=? 0)) eqn:T.
    + apply andb_prop in T as [_ T]. apply cmp_le0 in T. right; left. exists i0, t.
      split; [reflexivity|]. split; [reflexivity|]. split; [exact T|]. rewrite Kp in Eb.
      assert (N : forall x, tag_ok x -> tmicro x < UINT_MAX -> mkTag (ttime x) ((tmicro x + 1) mod two32) = next x).
      { intros x Hx Hm. unfold next. rewrite Z.mod_small; [reflexivity|]. tag_consts; lia. }
      rewrite !N in Eb by assumption.
      assert (Lt : forall x, tag_lt x (next x)) by (intros; unfold tag_lt, next; cbn; lia).
      assert (Le : forall x, tag_le (cur s) x -> later x (cur s) = x).
      { intros x Hx. unfold later. apply cmp_lt0_false in Hx. now rewrite Hx. }
      destruct (tag_compare (next (cur s)) a <=? 0) eqn:Q.
      * apply cmp_le0 in Q. rewrite Le in Eb.
        -- destruct (A _ Eb) as [K|[K _]]; [now right|]. exfalso. apply (tag_lt_irrefl a). rewrite <- K at 2. apply Lt.
        -- apply tag_lt_le. eapply tag_lt_trans; [apply Lt|]. eapply tag_le_lt_trans; [exact Q|apply Lt].
      * rewrite Le in Eb by (apply tag_lt_le, Lt). destruct (A _ Eb) as [K|[_ K]]; auto.
    + destruct (L t (cur s)) as [K|K]; rewrite K in Eb; destruct (A _ Eb) as [->|[-> ->]]; auto 6.
  - destruct Eb as [<- Eb]. destruct (L t (cur s)) as [K|K]; rewrite K in Eb; destruct (A _ Eb) as [->|[-> ->]]; auto 6.
  - destruct Eb as (_ & <- & Eb). destruct (L (cur s) (cur s)) as [K|K]; rewrite K in Eb; destruct (A _ Eb) as [->|[-> ->]]; auto 6.
  - destruct Eb as (_ & Hf & Eb).
    assert (K : later FOREVER_TAG (cur s) = FOREVER_TAG).
    { unfold later. pose proof (tag_forever_greatest (cur s) Oc) as G. apply cmp_lt0_false in G. now rewrite G. }
    rewrite K in Eb. destruct (A _ Eb) as [->|[Q ->]]; [left; now split|right; right; split; [now split|reflexivity]].
Qed.

(** The exception is real: a peer says that the input is absent at (100,0) when
    the wait for it has already expired at (100,0).  The federate then takes the
    input as known at (100,1) and no longer waits for it there, although the peer
    may still send a message with tag (100,1). *)
Theorem C62_ahead_refuted : exists l ops s,
  Forall port_ok l /\ run true 100 (boot true 100 l) ops = Some s /\
  (forall o j t, In o ops -> (o = OMessageNow j t \/ o = OMessageLater j t \/ o = OAbsent j t) -> t = mkTag 100 0) /\
  (forall t, ~ In (OTag t) ops) /\ (forall f, ~ In (OGone f) ops) /\
  (forall t, In (OAdvance t) ops -> t = mkTag 100 1) /\
  (* the wait expired at (100,0), before the advance *)
  ops = [OAssumeAbsent 0; OAbsent 0 (mkTag 100 0); OAdvance (mkTag 100 1)] /\
  known_at s 0 = Some (mkTag 100 1) /\ mlaa s = INT_MAX.
Proof.
  exists [mkPort NEVER_TAG false 3 NEVER false 1], [OAssumeAbsent 0; OAbsent 0 (mkTag 100 0); OAdvance (mkTag 100 1)].
  eexists. split; [repeat constructor; vm_compute; congruence|]. split; [vm_compute; reflexivity|].
  split; [|split; [|split; [|split; [|split; [reflexivity|split; reflexivity]]]]].
  - intros o j t [<-|[<-|[<-|[]]]] [K|[K|K]]; now inversion K.
  - intros t [K|[K|[K|[]]]]; discriminate K.
  - intros f [K|[K|[K|[]]]]; discriminate K.
  - intros t [K|[K|[K|[]]]]; now inversion K.
Qed.

Example C62_ex : told true (boot true 100 ex_ports) (OAbsent 0 (mkTag 105 0)) 0 (mkTag 105 0) /\
  option_map (fun s => known_at s 0) (step true 100 (boot true 100 ex_ports) (OAbsent 0 (mkTag 105 0))) = Some (Some (mkTag 105 0)).
Proof. split; [split; [reflexivity|now left]|vm_compute; reflexivity]. Qed.

(** C61: with decentralized coordination a federate commits to a tag without
    waiting for its STA offset only if the tag is the start tag, the offset is
    zero, or the status of every input is settled for every earlier tag. *)
Theorem C61_commit start sta s t r :
  tag_ok t -> in_int64 sta -> wait_until_time start sta s t = Ok r ->
  r = ttime t \/ r = sat_sum (ttime t) sta.
Proof.
  intros Ht Hp H. unfold wait_until_time in H. case_if; [|left; congruence]. case_if; [left; congruence|].
  right. apply (time_add_defined _ _ _ (proj1 Ht) Hp H).
Qed.
Theorem C61_settled start sta s t :
  tag_ok t -> NEVER < ttime t -> t <> mkTag start 0 ->
  wait_until_time start sta s t <> time_add (ttime t) sta -> settled_before s t.
Proof.
  intros Ht Hn Hne H p x Hp Hx Hlt. unfold wait_until_time in H.
  assert ((negb (ttime t =? start) || negb (tmicro t =? 0)) = true) as E.
  { destruct t as [tt tm]. cbn [ttime tmicro] in *. destruct (Z.eqb_spec tt start); [|reflexivity]. destruct (Z.eqb_spec tm 0); [|reflexivity]. subst. congruence. }
  rewrite E in H.
  set (before := if 0 <? tmicro t then _ else _) in H.
  destruct (inputs_known_to s before) eqn:K; [|congruence].
  unfold inputs_known_to in K. rewrite forallb_forall in K. specialize (K p Hp). apply negb_true_iff in K. apply cmp_lt0_false in K.
  eapply tag_le_trans; [|exact K]. unfold before, tag_lt, tag_le in *. destruct Hx as [_ Hx]. destruct Ht as [_ Ht].
  unfold in_uint32 in *. destruct (0 <? tmicro t) eqn:M; cbn [ttime tmicro]; lia.
Qed.
Example C61_ex :
  wait_until_time 100 50 (mkFed [mkPort (mkTag 104 3) false 3 NEVER false 1] (mkTag 100 0) NEVER_TAG false INT_MAX) (mkTag 104 4) = Ok 104 /\ wait_until_time 100 50 (mkFed [mkPort (mkTag 104 3) false 3 NEVER false 1] (mkTag 100 0) NEVER_TAG false INT_MAX) (mkTag 104 5) = Ok 154.
Proof. vm_compute. auto. Qed.

(** C57: when the reported next-event tag is bounded by the physical clock, every
    output that a physical action triggered at a later reading of the clock can
    produce has a strictly later tag (and the tag reported is earlier than the
    one proposed). *)
Theorem C57_bounded min_delay ds phys t t' :
  bounded_net min_delay ds phys t = Ok (t', true) ->
  tag_lt t' t /\
  forall phys' out, phys <= phys' -> phys' + min_delay <= ttime out -> tag_lt t' out.
Proof.
  unfold bounded_net, c_add64, bind. intros H. case_if; [|discriminate]. case_if; [|discriminate]. case_if; [|discriminate].
  case_if; [|discriminate]. injection H as <-. unfold tag_lt. cbn [ttime tmicro]. split; [lia|]. intros. lia.
Qed.

(** C57: and when it is reported as proposed although there are physical actions
    and downstream federates, such an output is not earlier in time; it is
    strictly later or equal to the tag reported if this is at microstep zero. *)
Theorem C57_unbounded min_delay phys t t' :
  0 <= min_delay -> bounded_net min_delay true phys t = Ok (t', false) ->
  t' = t /\
  forall phys' out, tag_ok out -> phys <= phys' -> phys' + min_delay <= ttime out ->
    ttime t <= ttime out /\ (tmicro t = 0 -> tag_le t out).
Proof.
  unfold bounded_net, c_add64, bind. intros Hm H. replace (0 <=? min_delay) with true in H by lia. cbn [andb] in H.
  case_if; [|discriminate]. case_if.
  - case_if; discriminate.
  - injection H as <-. split; [reflexivity|]. intros phys' out [_ Ho] H1 H2. unfold tag_le, in_uint32 in *. lia.
Qed.
Example C57_ex : bounded_net 5 true 100 (mkTag 200 3) = Ok (mkTag 104 0, true).
Proof. reflexivity. Qed.

(** At a later microstep the promise is broken: the clock reads 100, the next
    event of the federate is at (105,2), it reports (105,2) unmodified, and a
    physical action triggered at that clock reading produces an output with tag
    (105,0). *)
Theorem C57_microstep_refuted : exists min_delay phys t t' out,
  0 <= min_delay /\ bounded_net min_delay true phys t = Ok (t', false) /\
  phys + min_delay <= ttime out /\ tag_lt out t'.
Proof.
  exists 5, 100, (mkTag 105 2), (mkTag 105 2), (mkTag 105 0). split; [lia|]. split; [reflexivity|].
  split; [cbn; lia|]. right. cbn. lia.
Qed.

(** With a huge minimum delay the addition overflows. *)
Theorem C57_overflow_refuted : exists min_delay phys t,
  in_int64 min_delay /\ in_int64 phys /\ tag_ok t /\ bounded_net min_delay true phys t = UB.
Proof.
  exists LLONG_MAX, 100, FOREVER_TAG. split; [vm_compute; split; congruence|]. split; [vm_compute; split; congruence|].
  split; [vm_compute; repeat split; congruence|reflexivity].
Qed.

Print Assumptions C52_mlaa.
Print Assumptions C52_stall.
Print Assumptions C52_stale_refuted.
Print Assumptions C53_step.
Print Assumptions C53_monotone.
Print Assumptions C53_wrap_refuted.
Print Assumptions C62_told_partial.
Print Assumptions C62_ahead_refuted.
Print Assumptions C61_commit.
Print Assumptions C61_settled.
Print Assumptions C57_bounded.
Print Assumptions C57_unbounded.
Print Assumptions C57_microstep_refuted.
Print Assumptions C57_overflow_refuted.
Print Assumptions C53_grants.
