(** Trace files are read back as they were written (C75). *)
From Coq Require Import Arith.
From Verif Require Import Base Net Trace TraceSpec TraceProps TraceFile TraceFileSpec TraceFileProofs.
Open Scope Z_scope.

(** ** C75.  Reading a trace file gives the start time, the table of objects and the records that were written, in order and
    nothing else (little-endian hosts, descriptions of at most 1023 characters). *)
Theorem C75_round_trip_partial : forall start table blocks, int64_ok start -> (length table <= 1024)%nat -> Forall object_ok table -> Forall block_ok blocks ->
  read_file false (write_file false start table blocks) = mkContents start table (concat blocks) EndOfFile.
Proof. exact round_trip. Qed.
Print Assumptions C75_round_trip_partial.

(** The fields of a record are those given to the tracepoint, whatever is in the padding. *)
Theorem C75_fields : forall big r p1 p2, entry_ok r -> padding p1 -> padding p2 -> length (image big r p1 p2) = 64%nat /\ fields big (image big r p1 p2) = r.
Proof. intros big r p1 p2 H H1 H2. split; [apply image_length; assumption|apply fields_image; assumption]. Qed.
Print Assumptions C75_fields.

(** A file that was cut off at any point - a crash, a full disk - is read up to the last complete buffer: the records found are
    a beginning of those traced, with the right table, and no access is out of bounds; if the header itself is incomplete the
    reader says so. *)
Theorem C75_truncated : forall start table blocks n, int64_ok start -> (length table <= 1024)%nat -> Forall object_ok table -> Forall block_ok blocks ->
  let c := read_file false (firstn n (write_file false start table blocks)) in
  (c = mkContents 0 [] [] (Exit 1)) \/
  (c_start c = start /\ c_table c = table /\ (exists done rest, blocks = done ++ rest /\ c_records c = concat done) /\ (c_end c = EndOfFile \/ c_end c = Exit 5)).
Proof. exact truncated. Qed.
Print Assumptions C75_truncated.

(** *** From tracepoints to the reader *)
Definition shape (t : trace) : Prop := (header t = false -> written t = []) /\ Forall (fun b => (1 <= length (snd b) <= CAPACITY)%nat) (written t).
Lemma flush_shape t w : good t -> shape t -> shape (flush t w IoOk).
Proof.
  intros (S1 & S2 & S3) (H1 & H2). unfold flush. rewrite S1, S2. cbn [negb andb]. destruct (buffers t w) as [|x b] eqn:B; cbn [negb]; [split; assumption|].
  split; cbn; [discriminate|]. apply Forall_app. split; [exact H2|]. constructor; [|constructor]. cbn [snd]. specialize (S3 w). rewrite B in S3. cbn [length] in *. lia.
Qed.
Lemma tracepoint_shape t tid r t' : good t -> shape t -> tracepoint t tid r IoOk = Go t' -> shape t'.
Proof.
  intros G H. unfold tracepoint. destruct (n_buffers t <? tid); [discriminate|]. destruct ((tid <? -1) || (n_buffers t <=? tid)); [discriminate|]. cbn zeta.
  assert (K : shape (if Nat.leb CAPACITY (length (buffers t tid)) then flush t tid IoOk else t)) by (destruct (Nat.leb CAPACITY (length (buffers t tid))); [apply flush_shape; assumption|exact H]).
  destruct (length (buffers (if Nat.leb CAPACITY (length (buffers t tid)) then flush t tid IoOk else t) tid) <? CAPACITY)%nat; [|discriminate]. intros E. injection E as <-. destruct K as (K1 & K2). split; cbn; assumption.
Qed.
Lemma run_shape l : forall t t', good t -> shape t -> tids_ok (n_buffers t) l -> io_ok l -> no_stop l -> run t l = Go t' -> shape t'.
Proof.
  induction l as [|o l IH]; intros t t' G H T I N E; cbn [run] in E; [injection E as <-; exact H|]. inversion T as [|? ? T1 T2]; inversion I as [|? ? I1 I2]; inversion N as [|? ? N1 N2]; subst. destruct o as [tid r o|o]; [|destruct N1]. subst o. cbn [step] in E.
  destruct (tracepoint_good t tid r G T1) as (t1 & E1 & G1 & Nb & _). rewrite E1 in E. apply (IH t1 t'); try assumption; [exact (tracepoint_shape t tid r t1 G H E1)|rewrite Nb; exact T2].
Qed.
Lemma stop_shape t o : good t -> shape t -> (forall w, o w = IoOk) -> shape (stop t o).
Proof.
  intros G H Ho. unfold stop. destruct (stopped t); [exact H|].
  assert (F : forall ws t, good t -> shape t -> shape (fold_left (fun t w => flush t w (o w)) ws t)).
  { induction ws as [|w ws IH]; intros t0 G0 H0; cbn [fold_left]; [exact H0|]. rewrite Ho. destruct (flush_good t0 w G0) as (A & _). apply IH; [exact A|apply flush_shape; assumption]. }
  destruct (F (all_buffers (n_buffers t)) t G H) as (F1 & F2). split; cbn; assumption.
Qed.
Lemma concat_map_snd (img : record -> list Z) (l : list (Z * list record)) : concat (map (fun b => map img (snd b)) l) = map img (flat_map snd l).
Proof. induction l as [|b l IH]; [reflexivity|]. cbn [map concat flat_map]. rewrite IH, map_app. reflexivity. Qed.

(** If the file does not fail, the reader finds exactly the records traced by all threads, and those of each thread in the
    order in which it has traced them (C54). *)
Theorem C75_traced : forall n l o start table img, tids_ok n l -> io_ok l -> no_stop l -> (forall w, o w = IoOk) -> l <> [] ->
  int64_ok start -> (length table <= 1024)%nat -> Forall object_ok table -> (forall r, length (img r) = 64%nat) ->
  exists t, run (trace0 n true) l = Go t /\
    read_file false (file_of false start table img (stop t o)) = mkContents start table (map img (flat_map snd (written (stop t o)))) EndOfFile /\
    forall v, -1 <= v < n -> in_file v (written (stop t o)) = traced v l.
Proof.
  intros n l o start table img T I N O Ne Hs Hl Ht Hi. destruct (C54_complete n l o T I N O) as (t & E & C1 & C2). exists t. split; [exact E|].
  assert (G0 : good (trace0 n true)) by (split; [reflexivity|]; split; [reflexivity|]; intros w; cbn; lia).
  assert (Sh : shape (stop t o)).
  { apply stop_shape; [|eapply run_shape; [exact G0|split; [reflexivity|constructor]|exact T|exact I|exact N|exact E]|exact O]. destruct (run_good l (trace0 n true) G0 T I N) as (t' & E' & G' & _). congruence. }
  destruct Sh as (Sh1 & Sh2). assert (Hh : header (stop t o) = true).
  { destruct (header (stop t o)) eqn:Hd; [reflexivity|exfalso]. specialize (Sh1 eq_refl). destruct l as [|x l]; [congruence|]. inversion T as [|? ? T1 T2]; inversion N as [|? ? N1 N2]; subst. destruct x as [v r io|]; [|destruct N1]. specialize (C2 v T1). rewrite Sh1 in C2. cbn [in_file traced] in C2. rewrite Z.eqb_refl in C2. discriminate. }
  split; [|exact C2]. unfold file_of. rewrite Hh, round_trip; [rewrite concat_map_snd; reflexivity|exact Hs|exact Hl|exact Ht|].
  apply Forall_forall. intros b Hb. apply in_map_iff in Hb. destruct Hb as (x & <- & Hx). rewrite Forall_forall in Sh2. specialize (Sh2 x Hx). unfold CAPACITY in Sh2. split; [rewrite map_length; exact Sh2|]. apply Forall_forall. intros y Hy. apply in_map_iff in Hy. destruct Hy as (z & <- & _). apply Hi.
Qed.
Print Assumptions C75_traced.

(** Two objects, two buffers with three records; the file cut off in the second buffer. *)
Definition ex_table : list object := [mkObject 140737488 0 0 [77; 97; 105; 110]; mkObject 140737500 140737512 1 [97]].
Definition ex_entry (k : Z) : entry := mkEntry 1 140737488 0 k (1000 + k) 2 (2000 - k) 0 (-1).
Definition ex_image (k : Z) : list Z := image false (ex_entry k) [1; 2; 3; 4] [0; 0; 0; 255].
Definition ex_blocks : list (list (list Z)) := [[ex_image 5; ex_image 6]; [ex_image 7]].
Lemma ex_table_ok : Forall object_ok ex_table.
Proof. unfold ex_table. repeat (apply Forall_cons || apply Forall_nil); unfold object_ok; cbn [o_pointer o_trigger o_type o_description length]; unfold address_ok, int32_ok; (split; [lia|]; split; [lia|]; split; [lia|]; split; [|lia]; repeat (apply Forall_cons || apply Forall_nil); unfold byte_ok; lia). Qed.
Lemma ex_blocks_ok : Forall block_ok ex_blocks.
Proof. unfold ex_blocks. repeat (apply Forall_cons || apply Forall_nil); (split; [cbn [length]; lia|repeat (apply Forall_cons || apply Forall_nil); reflexivity]). Qed.
Example C75_ex :
  int64_ok 1000 /\ Forall object_ok ex_table /\ Forall block_ok ex_blocks /\
  read_file false (write_file false 1000 ex_table ex_blocks) = mkContents 1000 ex_table [ex_image 5; ex_image 6; ex_image 7] EndOfFile /\
  map (fields false) [ex_image 5; ex_image 7] = [ex_entry 5; ex_entry 7] /\
  read_file false (firstn 250 (write_file false 1000 ex_table ex_blocks)) = mkContents 1000 ex_table [ex_image 5; ex_image 6] (Exit 5) /\
  read_file false (firstn 50 (write_file false 1000 ex_table ex_blocks)) = mkContents 0 [] [] (Exit 1).
Proof.
  split; [unfold int64_ok; lia|]. split; [exact ex_table_ok|]. split; [exact ex_blocks_ok|]. vm_compute. auto.
Qed.

(** The full statement is false in three respects.  On a big-endian host the reader finds no records: the four bytes written
    are the upper half of the counters (trace_impl.c:54, 107). *)
Theorem C75_big_endian_refuted : exists start table blocks, int64_ok start /\ Forall object_ok table /\ Forall block_ok blocks /\ blocks <> [] /\
  c_records (read_file true (write_file true start table blocks)) = [] /\ c_end (read_file true (write_file true start table blocks)) = EndOfFile.
Proof.
  exists 1000, ex_table, ex_blocks. split; [unfold int64_ok; lia|]. split; [exact ex_table_ok|]. split; [exact ex_blocks_ok|]. split; [discriminate|]. vm_compute. auto.
Qed.
Print Assumptions C75_big_endian_refuted.

(** A description of 1024 characters makes the rest of the file unreadable (trace_util.c:251): a character is lost, and the null
    is taken for the beginning of what follows. *)
Theorem C75_description_refuted : exists d, length d = 1024%nat /\ Forall (fun c => byte_ok c /\ c <> 0) d /\
  read_file false (write_file false 1000 [mkObject 16 0 0 d] ex_blocks) = mkContents 1000 [mkObject 16 0 0 (firstn 1023 d)] [] (Exit 5).
Proof.
  exists (repeat 97 1024). split; [apply repeat_length|]. split; [apply Forall_forall; intros x Hx; apply repeat_spec in Hx; subst x; unfold byte_ok; lia|]. vm_compute. reflexivity.
Qed.
Print Assumptions C75_description_refuted.

(** An object that finds the table full is dropped, and the caller is told that it was registered (tracepoint.c:50-54). *)
Theorem C75_register_refuted : exists table o, register table o = (table, 1) /\ ~ In o table.
Proof.
  exists (repeat (mkObject 1 0 0 [97]) 1024), (mkObject 2 0 0 [98]). split; [reflexivity|]. intros H. apply repeat_spec in H. discriminate.
Qed.
Print Assumptions C75_register_refuted.
(** Otherwise it is in the table from then on. *)
Theorem C75_register : forall table o, (length table < 1024)%nat -> register table o = (table ++ [o], 1).
Proof. intros table o H. unfold register, TRACE_OBJECT_TABLE_SIZE. replace (1024 <=? length table)%nat with false by (symmetry; apply Nat.leb_gt; exact H). reflexivity. Qed.
Print Assumptions C75_register.
