(** The trace file: property C54. *)
From Verif Require Import Base Trace TraceSpec.
Open Scope Z_scope.

Lemma in_file_app tid a b : in_file tid (a ++ b) = in_file tid a ++ in_file tid b.
Proof. induction a as [|[v x] a IH]; [reflexivity|]. cbn [app in_file]. rewrite IH. destruct (v =? tid); [now rewrite app_assoc|reflexivity]. Qed.

(** ** A file that never fails. *)
Definition good (t : trace) : Prop := stopped t = false /\ file_open t = true /\ forall w, (length (buffers t w) <= CAPACITY)%nat.
Definition content (t : trace) (w : Z) : list record := in_file w (written t) ++ buffers t w.

Lemma flush_good t w : good t -> good (flush t w IoOk) /\ (forall v, content (flush t w IoOk) v = content t v) /\
  buffers (flush t w IoOk) w = [] /\ n_buffers (flush t w IoOk) = n_buffers t /\ (forall v, buffers t v = [] -> buffers (flush t w IoOk) v = []).
Proof.
  intros (S1 & S2 & S3). unfold flush. rewrite S1, S2. cbn [negb andb].
  destruct (buffers t w) as [|x b] eqn:B; cbn [negb].
  - split; [now split|]. auto 6.
  - split; [|split; [|split; [|split]]].
    + split; [reflexivity|]. split; [reflexivity|]. intros v. cbn. destruct (v =? w); [cbn; lia|apply S3].
    + intros v. unfold content. cbn. rewrite in_file_app. cbn. rewrite (Z.eqb_sym v w). destruct (Z.eqb_spec w v) as [->|]; [rewrite B, !app_nil_r; reflexivity|now rewrite app_nil_r].
    + cbn. now rewrite Z.eqb_refl.
    + reflexivity.
    + intros v Hv. cbn. destruct (v =? w); auto.
Qed.

Lemma tracepoint_good t tid r : good t -> -1 <= tid < n_buffers t ->
  exists t', tracepoint t tid r IoOk = Go t' /\ good t' /\ n_buffers t' = n_buffers t /\
    content t' tid = content t tid ++ [r] /\ (forall v, v <> tid -> content t' v = content t v).
Proof.
  intros G R. unfold tracepoint. replace (n_buffers t <? tid) with false by lia. replace ((tid <? -1) || (n_buffers t <=? tid)) with false by lia. cbn zeta.
  assert (W : exists t1, (if Nat.leb CAPACITY (length (buffers t tid)) then flush t tid IoOk else t) = t1 /\ good t1 /\ n_buffers t1 = n_buffers t /\
     (forall v, content t1 v = content t v) /\ (length (buffers t1 tid) < CAPACITY)%nat).
  { destruct (Nat.leb_spec CAPACITY (length (buffers t tid))) as [L|L].
    - destruct (flush_good t tid G) as (A & B & C & D & _). eexists. split; [reflexivity|]. split; [exact A|]. split; [exact D|]. split; [exact B|]. rewrite C. unfold CAPACITY. cbn [length]. lia.
    - eexists. split; [reflexivity|]. split; [exact G|]. auto. }
  destruct W as (t1 & -> & G1 & N1 & C1 & L1). replace (length (buffers t1 tid) <? CAPACITY)%nat with true by (symmetry; now apply Nat.ltb_lt).
  eexists. split; [reflexivity|]. destruct G1 as (S1 & S2 & S3). split; [|split; [exact N1|split]].
  - split; [exact S1|]. split; [exact S2|]. intros w. cbn. destruct (w =? tid); [rewrite app_length; cbn [length]; lia|apply S3].
  - rewrite <- C1. unfold content. cbn. rewrite Z.eqb_refl. now rewrite app_assoc.
  - intros v Hv. rewrite <- C1. unfold content. cbn. destruct (Z.eqb_spec v tid); [contradiction|reflexivity].
Qed.

Lemma run_good l : forall t, good t -> tids_ok (n_buffers t) l -> io_ok l -> no_stop l ->
  exists t', run t l = Go t' /\ good t' /\ n_buffers t' = n_buffers t /\ forall v, content t' v = content t v ++ traced v l.
Proof.
  induction l as [|o l IH]; intros t G T I N; cbn [run traced]; [exists t; split; [reflexivity|]; split; [exact G|]; split; [reflexivity|]; intros; now rewrite app_nil_r|].
  inversion T as [|? ? T1 T2]; inversion I as [|? ? I1 I2]; inversion N as [|? ? N1 N2]; subst.
  destruct o as [tid r o|o]; [|destruct N1]. cbn [step]. subst o.
  destruct (tracepoint_good t tid r G T1) as (t1 & -> & G1 & Nb & C1 & C2).
  destruct (IH t1 G1) as (t' & E & G' & Nb' & C'); [rewrite Nb; exact T2|exact I2|exact N2|]. exists t'. split; [exact E|]. split; [exact G'|]. split; [congruence|].
  intros v. rewrite C'. cbn [traced]. destruct (Z.eqb_spec tid v) as [<-|Hv]; [rewrite C1, <- app_assoc; reflexivity|rewrite C2 by auto; reflexivity].
Qed.

Lemma stop_good t o : good t -> (forall w, o w = IoOk) ->
  forall v, -1 <= v < n_buffers t -> in_file v (written (stop t o)) = content t v.
Proof.
  intros G O v R. unfold stop. destruct G as (S1 & S2 & S3). rewrite S1. cbn [written].
  assert (F : forall ws t, good t -> let t' := fold_left (fun t w => flush t w (o w)) ws t in
     good t' /\ (forall v, content t' v = content t v) /\ (forall v, In v ws \/ buffers t v = [] -> buffers t' v = [])).
  { induction ws as [|w ws IH]; intros t0 G0; cbn [fold_left]; [split; [exact G0|]; split; [reflexivity|]; intros u [[]|H]; exact H|].
    rewrite O. destruct (flush_good t0 w G0) as (A & B & C & _ & D). destruct (IH _ A) as (A' & B' & C').
    split; [exact A'|]. split; [intros u; now rewrite B', B|]. intros u [[<-|Hu]|Hu]; apply C'; auto. }
  destruct (F (all_buffers (n_buffers t)) t (conj S1 (conj S2 S3))) as (_ & B & C). rewrite <- B. unfold content at 1. rewrite C; [now rewrite app_nil_r|].
  left. unfold all_buffers. apply in_map_iff. exists (Z.to_nat (v + 1)). split; [lia|]. apply in_seq. lia.
Qed.

(** C54: if the file does not fail, no access is out of bounds and the records of
    every thread are in the file or its buffer, in order, each exactly once; after
    the end of tracing they are all in the file. *)
Theorem C54_complete n l o : tids_ok n l -> io_ok l -> no_stop l -> (forall w, o w = IoOk) ->
  exists t, run (trace0 n true) l = Go t /\
    (forall v, in_file v (written t) ++ buffers t v = traced v l /\ (length (buffers t v) <= CAPACITY)%nat) /\
    forall v, -1 <= v < n -> in_file v (written (stop t o)) = traced v l.
Proof.
  intros T I N O. destruct (run_good l (trace0 n true)) as (t & E & G & Nb & C); try assumption.
  { split; [reflexivity|]. split; [reflexivity|]. intros w. cbn. lia. }
  exists t. split; [exact E|]. split.
  - intros v. split; [exact (C v)|apply G].
  - intros v R. rewrite (stop_good t o G O v); [exact (C v)|]. rewrite Nb. exact R.
Qed.
Example C54_ex : let l := [Tracepoint 0 7 IoOk; Tracepoint (-1) 8 IoOk; Tracepoint 0 9 IoOk] in
  tids_ok 2 l /\ io_ok l /\ no_stop l /\
  match run (trace0 2 true) l with Go t => in_file 0 (written (stop t (fun _ => IoOk))) = [7; 9] | _ => False end.
Proof. cbn zeta. unfold tids_ok, io_ok, no_stop. repeat split; try (repeat constructor; lia). Qed.

(** ** A file that may fail. *)
Inductive subsequence {A} : list A -> list A -> Prop :=
| sub_nil : subsequence [] []
| sub_skip x a b : subsequence a b -> subsequence a (x :: b)
| sub_keep x a b : subsequence a b -> subsequence (x :: a) (x :: b).
Lemma sub_refl {A} (l : list A) : subsequence l l.
Proof. induction l; constructor; assumption. Qed.
Lemma sub_trans {A} (b c : list A) : subsequence b c -> forall a, subsequence a b -> subsequence a c.
Proof.
  induction 1; intros a0 H1; [exact H1|constructor; auto|]. inversion H1; subst; [apply sub_skip; auto|apply sub_keep; auto].
Qed.
Lemma sub_app {A} (a b c d : list A) : subsequence a b -> subsequence c d -> subsequence (a ++ c) (b ++ d).
Proof. intros H1 H2. induction H1; cbn; [exact H2|apply sub_skip; assumption|apply sub_keep; assumption]. Qed.
Lemma sub_nil_l {A} (l : list A) : subsequence [] l.
Proof. induction l; constructor; auto. Qed.
Lemma sub_firstn {A} k (l : list A) : subsequence (firstn k l) l.
Proof. revert k; induction l as [|x l IH]; intros [|k]; cbn [firstn]; [constructor|constructor|apply sub_nil_l|apply sub_keep; apply IH]. Qed.

Lemma flush_sub t w o v : subsequence (content (flush t w o) v) (content t v) /\ n_buffers (flush t w o) = n_buffers t.
Proof.
  unfold flush. destruct (negb (stopped t) && file_open t && _); [|split; [apply sub_refl|reflexivity]].
  assert (K : forall b, subsequence (if v =? w then b else buffers t v) (if v =? w then b else buffers t v)) by (intros; apply sub_refl).
  assert (Gen : forall k blk op hd, subsequence blk (buffers t w) ->
     subsequence (content (set_buffer (mkTrace (buffers t) (n_buffers t) (stopped t) op hd (written t ++ k)) w []) v) (content t v) ->  True) by auto.
  clear Gen K.
  assert (Drop : forall op, subsequence (content (set_buffer (mkTrace (buffers t) (n_buffers t) (stopped t) op true (written t)) w []) v) (content t v)).
  { intros op. unfold content. cbn. apply sub_app; [apply sub_refl|]. destruct (v =? w); [apply sub_nil_l|apply sub_refl]. }
  assert (Blk : forall op b, subsequence b (buffers t w) -> subsequence (content (set_buffer (mkTrace (buffers t) (n_buffers t) (stopped t) op true (written t ++ [(w, b)])) w []) v) (content t v)).
  { intros op b H1. unfold content. cbn. rewrite in_file_app. cbn. rewrite (Z.eqb_sym v w). destruct (Z.eqb_spec w v) as [->|]; rewrite ?app_nil_r, <- ?app_assoc; [|rewrite ?app_nil_r; apply sub_refl].
    rewrite ?app_nil_r. apply sub_app; [apply sub_refl|exact H1]. }
  destruct o as [| | |k]; destruct (header t); (split; [|reflexivity]); try apply Drop; try (apply Blk; apply sub_refl); try (apply Blk; apply sub_firstn); apply sub_refl.
Qed.

Lemma step_sub t o t' : step t o = Go t' -> forall v, exists b,
  subsequence (content t' v) (content t v ++ b) /\ b = traced v [o].
Proof.
  intros E v. destruct o as [tid r o|o]; cbn [step traced] in *.
  - unfold tracepoint in E. destruct (n_buffers t <? tid); [discriminate|]. destruct ((tid <? -1) || _); [discriminate|]. cbn zeta in E.
    set (t1 := if Nat.leb CAPACITY (length (buffers t tid)) then flush t tid o else t) in *.
    assert (S1 : subsequence (content t1 v) (content t v)) by (unfold t1; destruct (Nat.leb _ _); [apply flush_sub|apply sub_refl]).
    destruct (_ <? _)%nat; [|discriminate]. injection E as <-. eexists. split; [|reflexivity].
    unfold content at 1. cbn. rewrite (Z.eqb_sym v tid). destruct (Z.eqb_spec tid v) as [->|].
    + rewrite app_assoc. apply sub_app; [exact S1|apply sub_refl].
    + rewrite app_nil_r. exact S1.
  - injection E as <-. exists []. split; [|reflexivity]. rewrite app_nil_r. unfold stop. destruct (stopped t); [apply sub_refl|].
    change (content (mkTrace ?b ?n ?s ?f ?h ?w) v) with (in_file v w ++ b v).
    assert (F : forall ws t, subsequence (content (fold_left (fun t w => flush t w (o w)) ws t) v) (content t v)).
    { induction ws as [|w ws IH]; intros t0; cbn [fold_left]; [apply sub_refl|]. eapply sub_trans; [apply flush_sub|apply IH]. }
    apply F.
Qed.

(** C54: whatever happens to the file, the records of a thread in the file are
    records it traced, in their order and none twice (some may be missing). *)
Theorem C54_order_partial n opened l t : run (trace0 n opened) l = Go t ->
  forall v, subsequence (in_file v (written t) ++ buffers t v) (traced v l).
Proof.
  assert (G : forall l t0 t, run t0 l = Go t -> forall v, subsequence (content t v) (content t0 v ++ traced v l)).
  { induction l0 as [|o l0 IH]; intros t0 t1 E v; cbn [run] in E; [injection E as <-; cbn; rewrite app_nil_r; apply sub_refl|].
    destruct (step t0 o) as [t2| |] eqn:S1; try discriminate. destruct (step_sub t0 o t2 S1 v) as (b & H1 & ->).
    assert (Tr : traced v (o :: l0) = traced v [o] ++ traced v l0). { destruct o as [tid r oo|oo]; cbn [traced]; [destruct (tid =? v); reflexivity|reflexivity]. }
    rewrite Tr, app_assoc. eapply sub_trans; [apply sub_app; [exact H1|apply sub_refl]|]. apply IH. exact E. }
  intros E v. exact (G l _ t E v).
Qed.

(** Findings.  Without a file (it could not be opened, it failed, or tracing has
    ended) a full buffer is not emptied and the next record is written past it. *)
Lemma fill t w r k : stopped t || negb (file_open t) = true -> -1 <= w < n_buffers t -> (length (buffers t w) + k <= CAPACITY)%nat ->
  exists t', run t (repeat (Tracepoint w r IoOk) k) = Go t' /\ length (buffers t' w) = (length (buffers t w) + k)%nat /\
    stopped t' || negb (file_open t') = true /\ n_buffers t' = n_buffers t.
Proof.
  revert t. induction k as [|k IH]; intros t S1 R L; cbn [repeat run]; [exists t; split; [reflexivity|]; split; [lia|auto]|].
  cbn [step]. unfold tracepoint. replace (n_buffers t <? w) with false by lia. replace ((w <? -1) || (n_buffers t <=? w)) with false by lia. cbn zeta.
  replace (Nat.leb CAPACITY (length (buffers t w))) with false by (symmetry; apply Nat.leb_gt; lia).
  replace (length (buffers t w) <? CAPACITY)%nat with true by (symmetry; apply Nat.ltb_lt; lia).
  destruct (IH (set_buffer t w (buffers t w ++ [r]))) as (t' & E & Lb & S2 & N2); [exact S1|exact R|cbn; rewrite Z.eqb_refl, app_length; cbn [length]; lia|].
  exists t'. split; [exact E|]. split; [|auto]. rewrite Lb. cbn. rewrite Z.eqb_refl, app_length. cbn [length]. lia.
Qed.
Lemma overflow t w r : stopped t || negb (file_open t) = true -> -1 <= w < n_buffers t -> buffers t w = [] ->
  run t (repeat (Tracepoint w r IoOk) (S CAPACITY)) = OutOfBounds.
Proof.
  intros S1 R B. replace (S CAPACITY) with (CAPACITY + 1)%nat by lia. rewrite repeat_app.
  destruct (fill t w r CAPACITY S1 R) as (t' & E & L & S2 & N2); [rewrite B; cbn [length]; lia|].
  assert (App : forall a t b, run t (a ++ b) = match run t a with Go t1 => run t1 b | x => x end).
  { induction a as [|o a IH]; intros t0 b; cbn [app run]; [reflexivity|]. destruct (step t0 o); auto. }
  rewrite App, E. cbn [repeat run step]. unfold tracepoint. replace (n_buffers t' <? w) with false by lia. replace ((w <? -1) || (n_buffers t' <=? w)) with false by lia. cbn zeta.
  rewrite B in L. cbn [length plus] in L. rewrite L, Nat.leb_refl.
  assert (flush t' w IoOk = t') as ->. { unfold flush. destruct (stopped t'), (file_open t'); cbn in *; try discriminate; reflexivity. }
  rewrite L, Nat.ltb_irrefl. reflexivity.
Qed.
Theorem C54_no_file_refuted : exists l, tids_ok 1 l /\ io_ok l /\ no_stop l /\ run (trace0 1 false) l = OutOfBounds.
Proof.
  exists (repeat (Tracepoint 0 5 IoOk) (S CAPACITY)).
  assert (F : forall (P : op -> Prop) o k, P o -> Forall P (repeat o k)) by (intros P o k H; induction k; constructor; auto).
  split; [apply F; cbn; lia|]. split; [now apply F|]. split; [now apply F|]. apply overflow; [reflexivity|cbn; lia|reflexivity].
Qed.
Theorem C54_after_stop_refuted : exists l, tids_ok 1 l /\ io_ok l /\ run (trace0 1 true) l = OutOfBounds.
Proof.
  exists (Stop (fun _ => IoOk) :: repeat (Tracepoint 0 5 IoOk) (S CAPACITY)).
  assert (F : forall (P : op -> Prop) o k, P o -> Forall P (repeat o k)) by (intros P o k H; induction k; constructor; auto).
  split; [constructor; [exact I|apply F; cbn; lia]|]. split; [constructor; [auto|now apply F]|].
  assert (E : run (trace0 1 true) (Stop (fun _ => IoOk) :: repeat (Tracepoint 0 5 IoOk) (S CAPACITY)) = run (stop (trace0 1 true) (fun _ => IoOk)) (repeat (Tracepoint 0 5 IoOk) (S CAPACITY))) by reflexivity.
  rewrite E. apply overflow; [reflexivity|change (-1 <= 0 < 1); lia|reflexivity].
Qed.
(** A header that cannot be written makes the very record that caused the flush
    overflow the buffer. *)
Theorem C54_header_refuted t w r :
  -1 <= w < n_buffers t -> stopped t = false -> file_open t = true -> header t = false -> length (buffers t w) = CAPACITY ->
  tracepoint t w r HeaderFails = OutOfBounds.
Proof.
  intros R S1 S2 S3 L. unfold tracepoint. replace (n_buffers t <? w) with false by lia. replace ((w <? -1) || (n_buffers t <=? w)) with false by lia. cbn zeta.
  rewrite L, Nat.leb_refl. unfold flush. rewrite S1, S2, S3. destruct (buffers t w) as [|x b] eqn:B; [discriminate|]. cbn [negb andb buffers]. rewrite B, L, Nat.ltb_irrefl. reflexivity.
Qed.
(** The test of the thread identifier lets one identifier too many through. *)
Theorem C54_tid_refuted n r o : 0 <= n -> tracepoint (trace0 n true) n r o = OutOfBounds /\ tracepoint (trace0 n true) (n + 1) r o = Exited.
Proof.
  intros H. unfold tracepoint. cbn [n_buffers trace0]. replace (n <? n) with false by lia. replace ((n <? -1) || (n <=? n)) with true by lia.
  replace (n <? n + 1) with true by lia. auto.
Qed.

Print Assumptions C54_complete.
Print Assumptions C54_order_partial.
Print Assumptions C54_no_file_refuted.
Print Assumptions C54_after_stop_refuted.
Print Assumptions C54_header_refuted.
Print Assumptions C54_tid_refuted.
