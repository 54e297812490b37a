(** C99: a trace sent to a database. *)
From Coq Require Import String.
From Verif Require Import Base CText Logging LoggingProofs Net TraceFile TraceCsv Chrome ChromeSpec ChromeProofs Influx InfluxSpec InfluxProofs.
Open Scope Z_scope.
Local Open Scope list_scope.

Definition table1 : list object := [mkObject 100 0 0 (lit "Main.a, b"); mkObject 100 200 1 (lit "say ""hi""")].
Definition entry1 : entry := mkEntry 3 100 2 (-1) 5000 1 6000 200 (-7).
Definition entry2 : entry := mkEntry 0 100 1 12 5000 0 7000 0 0.
Definition entry3 : entry := mkEntry 20 100 1 12 5000 0 7500 0 0.
Lemma entry1_ok : sendable table1 entry1.
Proof. split; [vm_compute; discriminate|]. split; [repeat constructor; vm_compute; discriminate|]. split; [repeat constructor; vm_compute; discriminate|]. split; [reflexivity|]. vm_compute. reflexivity. Qed.
Lemma entry2_ok : sendable table1 entry2.
Proof. split; [vm_compute; discriminate|]. split; [repeat constructor; vm_compute; discriminate|]. split; [repeat constructor; vm_compute; discriminate|]. split; [reflexivity|]. vm_compute. reflexivity. Qed.

(** The database reads in the line of an entry what the entry says, at the address that was set. *)
Theorem C99_line_partial c token table e : sendable table e -> Z.of_nat (List.length token) <= 98 ->
  exists q, post_curl c token (point_of table e) = Ok q /\ read_line (q_data q) = Some (meaning table e) /\ q_token q = lit "Authorization: Token " ++ token
  /\ ((List.length (url c) < List.length (line_of table e))%nat -> q_url q = url c).
Proof.
  intros S0 T. rewrite (post_ok c token table e S0 T). eexists. split; [reflexivity|]. cbn [q_data q_url q_token]. split; [now apply read_ok|]. split; [reflexivity|].
  intros L. unfold snprintf. apply firstn_all2. lia.
Qed.
Example C99_line_ex : sendable table1 entry1 /\ (List.length (url conf0) < List.length (line_of table1 entry1))%nat
  /\ line_of table1 entry1 = lit "Schedule\ called,Reactor=Main.a\,\ b,Reaction=none Worker=2i,Logical\ Time=5000i,Microstep=1i,Trigger\ Name=""say \""hi\"""",Extra\ Delay=-7i 6000" ++ [10].
Proof. split; [exact entry1_ok|]. split; [vm_compute; repeat constructor|]. vm_compute. reflexivity. Qed.

(** Entries are sent in the order of the trace, those between federates are left out, up to the first failure of curl.
    Missing: entries that are not sendable. *)
Theorem C99_sent_partial c token table codes blocks : Forall (Forall (fun e => local e = true -> sendable table e)) blocks -> Forall (fun b => b <> []) blocks -> Z.of_nat (List.length token) <= 98 ->
  exists qs n, load c token table codes blocks 0 = Ok (qs, n)
  /\ map (fun q => read_line (q_data q)) qs = firstn (sent codes (List.length (filter local (concat blocks)))) (map (fun e => Some (meaning table e)) (filter local (concat blocks))).
Proof.
  intros F N T. destruct (load_ok c token table blocks codes 0 F N T) as (qs & n & L & M). exists qs, n. split; [exact L|].
  rewrite <- (map_map q_data read_line), M. unfold lines. rewrite map_length. rewrite <- firstn_map, map_map. f_equal. apply map_ext_in.
  intros e I. apply filter_In in I. destruct I as [I Lo]. apply read_ok. apply in_concat in I. destruct I as (b & B & I). rewrite Forall_forall in F. specialize (F b B). rewrite Forall_forall in F. now apply F.
Qed.
Example C99_sent_ex : let blocks := [[entry1; entry3]; [entry2]] in
  Forall (Forall (fun e => local e = true -> sendable table1 e)) blocks /\ Forall (fun b => b <> []) blocks /\ sent [] (List.length (filter local (concat blocks))) = 2%nat /\ sent [7; 0] (List.length (filter local (concat blocks))) = 1%nat.
Proof.
  cbv zeta. split; [|split; [repeat constructor; discriminate|split; reflexivity]].
  repeat constructor; intros X; first [exact entry1_ok|exact entry2_ok|discriminate X].
Qed.

Lemma str_neq a b : a <> b -> str_eqb a b = false.
Proof. intros N. destruct (str_eqb a b) eqn:Q; [|reflexivity]. exfalso. apply N. revert b Q N. induction a as [|x a IH]; intros [|y b] Q N; cbn [str_eqb] in Q; try discriminate; [reflexivity|]. apply andb_prop in Q. destruct Q as [Q1 Q2]. apply Z.eqb_eq in Q1. subst. f_equal. apply IH; [exact Q2|]. intros ->. now apply N. Qed.
Lemma parse_items l : forall c file, Forall good l ->
  parse (flat_map words l) c file =
  Ok (match last_of (fun i => match i with Token _ v => Some (Some v) | _ => None end) l (c_token c), last_of (fun i => match i with File f => Some (Some f) | _ => None end) l file with
      | Some t, Some f => Start (mkConf (Some t) (last_of (fun i => match i with Host _ v => Some v | _ => None end) l (c_host c)) (last_of (fun i => match i with Port _ v => Some (number v) | _ => None end) l (c_port c))
            (last_of (fun i => match i with Org _ v => Some v | _ => None end) l (c_org c)) (last_of (fun i => match i with Bucket _ v => Some v | _ => None end) l (c_bucket c))) t f
      | _, _ => Failed end).
Proof.
  induction l as [|i l IH]; intros c file F.
  - cbn [flat_map parse]. unfold last_of. cbn [fold_left]. destruct c as [tk h p o b]. cbn [c_token c_host c_port c_org c_bucket]. destruct tk, file; reflexivity.
  - inversion F as [|? ? F1 F2]; subst. destruct i as [[|] v|[|] v|[|] v|[|] v|[|] v|f]; cbn [flat_map words app].
    + transitivity (parse (flat_map words l) (set_token c v) file); [reflexivity|rewrite IH by exact F2; reflexivity].
    + transitivity (parse (flat_map words l) (set_token c v) file); [reflexivity|rewrite IH by exact F2; reflexivity].
    + transitivity (parse (flat_map words l) (set_host c v) file); [reflexivity|rewrite IH by exact F2; reflexivity].
    + transitivity (parse (flat_map words l) (set_host c v) file); [reflexivity|rewrite IH by exact F2; reflexivity].
    + assert (B : in_int32b (number v) = true) by (cbn [good] in F1; unfold in_int32b; change (2 ^ 31) with 2147483648 in F1; lia).
      transitivity (if in_int32b (number v) then parse (flat_map words l) (set_port c (number v)) file else Undefined); [reflexivity|]. rewrite B, IH by exact F2. reflexivity.
    + assert (B : in_int32b (number v) = true) by (cbn [good] in F1; unfold in_int32b; change (2 ^ 31) with 2147483648 in F1; lia).
      transitivity (if in_int32b (number v) then parse (flat_map words l) (set_port c (number v)) file else Undefined); [reflexivity|]. rewrite B, IH by exact F2. reflexivity.
    + transitivity (parse (flat_map words l) (set_org c v) file); [reflexivity|rewrite IH by exact F2; reflexivity].
    + transitivity (parse (flat_map words l) (set_org c v) file); [reflexivity|rewrite IH by exact F2; reflexivity].
    + transitivity (parse (flat_map words l) (set_bucket c v) file); [reflexivity|rewrite IH by exact F2; reflexivity].
    + transitivity (parse (flat_map words l) (set_bucket c v) file); [reflexivity|rewrite IH by exact F2; reflexivity].
    + assert (Q : forall o, In o options -> str_eqb (lit o) f = false) by (intros o O; apply str_neq; cbn [good] in F1; rewrite Forall_forall in F1; specialize (F1 o O); congruence).
      cbn [parse]. unfold is2. rewrite !Q by (unfold options; cbn; tauto). cbn [orb]. rewrite IH by exact F2. unfold last_of. cbn [fold_left]. reflexivity.
Qed.
(** Settings may be given in any order and before or after the file; without a token or a file nothing is sent. *)
Theorem C99_settings l : l <> [] -> Forall good l ->
  main (flat_map words l) = Ok (match token_of l, file_of l with Some t, Some f => Start (mkConf (Some t) (host_of l) (port_of l) (org_of l) (bucket_of l)) t f | _, _ => Failed end).
Proof.
  intros N F. unfold main. destruct (flat_map words l) as [|w ws] eqn:Q; [destruct l as [|[]]; [contradiction|discriminate..]|]. rewrite <- Q. apply (parse_items l conf0 None F).
Qed.
Example C99_settings_ex : let l := [Token false (lit "secret"); File (lit "a.lft"); Port true (lit "8087")] in
  Forall good l /\ main (flat_map words l) = Ok (Start (mkConf (Some (lit "secret")) (lit "localhost") 8087 (lit "iCyPhy") (lit "test")) (lit "secret") (lit "a.lft")).
Proof. cbv zeta. split; [|vm_compute; reflexivity]. repeat constructor; cbn; try discriminate; lia. Qed.

Definition named (n : nat) (r t : text) : list object := [mkObject 100 0 0 (r ++ repeat 97 n); mkObject 300 200 1 t].
(** A longer line is cut at the end of the first block. *)
Theorem C99_long_refuted : exists q, post_curl conf0 (lit "secret") (point_of (named 130 (lit "Main.") (lit "t")) entry1) = Ok q
  /\ read_line (q_data q) = None /\ List.length (q_data q) = 255%nat.
Proof. eexists. split; [vm_compute; reflexivity|]. split; vm_compute; reflexivity. Qed.
(** A long name is copied beyond the end of the block. *)
Theorem C99_memory_refuted : post_curl conf0 (lit "secret") (point_of (named 600 (lit "Main.") (lit "t")) entry1) = Undefined.
Proof. vm_compute. reflexivity. Qed.
(** Backslashes are not escaped: the database cannot read the line. *)
Theorem C99_backslash_refuted : exists q, post_curl conf0 (lit "secret") (point_of (named 0 (lit "Main") (lit "t\")) entry1) = Ok q /\ read_line (q_data q) = None.
Proof. eexists. split; vm_compute; reflexivity. Qed.
(** The address is cut to the length of the line. *)
Theorem C99_url_refuted : let c := set_host conf0 (repeat 104 120) in
  exists q, post_curl c (lit "secret") (point_of table1 entry2) = Ok q /\ List.length (url c) = 181%nat /\ List.length (q_url q) = 139%nat.
Proof. eexists. split; [vm_compute; reflexivity|]. split; vm_compute; reflexivity. Qed.
(** A token with more than 98 characters is written beyond its block. *)
Theorem C99_token_refuted c token table e : 99 <= Z.of_nat (List.length token) -> post_curl c token (point_of table e) = Undefined.
Proof.
  intros T. unfold post_curl. destruct (format_line _) as [[b|]|]; try reflexivity. destruct (Z.leb_spec 120 (Z.of_nat (List.length (token_line token)))) as [_|X]; [reflexivity|].
  unfold token_line in X. rewrite app_length in X. change (List.length (lit "Authorization: Token ")) with 21%nat in X. lia.
Qed.
(** The number of records that is printed is the one of the last block. *)
Theorem C99_count_refuted : exists qs, load conf0 (lit "secret") table1 [] [[entry1; entry2]; [entry2]] 0 = Ok (qs, 1) /\ List.length qs = 3%nat.
Proof. eexists. split; vm_compute; reflexivity. Qed.
(** Numbers of reactions are cut to three digits. *)
Theorem C99_digits_refuted : let e := mkEntry 0 100 1 1234 5000 0 7000 0 0 in
  exists q p, post_curl conf0 (lit "secret") (point_of table1 e) = Ok q /\ read_line (q_data q) = Some p /\ nth 1 (t_tags p) ([], []) = (lit "Reaction", lit "123").
Proof. eexists. eexists. split; [vm_compute; reflexivity|]. split; [vm_compute; reflexivity|]. vm_compute. reflexivity. Qed.
(** Entries of different workers for the same kind, reactor, reaction and time are the same point: the database keeps the last one. *)
Theorem C99_merge_refuted table e w logical micro trig delay :
  identity (meaning table (mkEntry (event_type e) (pointer e) w (dst_id e) logical micro (physical_time e) trig delay)) = identity (meaning table e).
Proof. reflexivity. Qed.
Example C99_merge_ex : let e := mkEntry 6 0 1 (-1) 0 0 9000 0 0 in let e' := mkEntry 6 0 2 (-1) 0 0 9000 0 0 in meaning table1 e <> meaning table1 e' /\ identity (meaning table1 e) = identity (meaning table1 e').
Proof. cbv zeta. split; [vm_compute; discriminate|]. vm_compute. reflexivity. Qed.

Print Assumptions C99_line_partial.
Print Assumptions C99_sent_partial.
Print Assumptions C99_settings.
Print Assumptions C99_long_refuted.
Print Assumptions C99_memory_refuted.
Print Assumptions C99_backslash_refuted.
Print Assumptions C99_url_refuted.
Print Assumptions C99_token_refuted.
Print Assumptions C99_count_refuted.
Print Assumptions C99_digits_refuted.
Print Assumptions C99_merge_refuted.
