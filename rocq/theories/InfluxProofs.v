(** Proofs for C99. *)
From Coq Require Import String.
From Verif Require Import Base CText Logging LoggingProofs Net TraceFile TraceCsv Chrome ChromeSpec ChromeProofs Influx InfluxSpec.
Open Scope Z_scope.
Local Open Scope list_scope.

(** * Lines *)
Definition flat1 (p : piece) : text := match p with P t => t | E s t => escape s t end.
Definition flat (ps : list piece) : text := flat_map flat1 ps.
Lemma span_split set s : forall a b, span set s = (a, b) -> s = a ++ b /\ escape set s = a ++ escape set b /\ (forall c r, b = c :: r -> member c set = true).
Proof.
  induction s as [|c s IH]; intros a b H; cbn [span] in H; [injection H as <- <-; repeat split; discriminate|].
  destruct (member c set) eqn:M.
  - injection H as <- <-. repeat split. intros c0 r [= -> _]. exact M.
  - destruct (span set s) as [a1 b1]. injection H as <- <-. destruct (IH _ _ eq_refl) as (-> & Q & R). split; [reflexivity|]. split; [|exact R].
    unfold escape in *. cbn [flat_map app]. rewrite M, Q. reflexivity.
Qed.
Lemma escaped_short set : forall fuel src m len, (List.length src <= fuel)%nat -> Z.of_nat (List.length m + List.length (escape set src)) <= len ->
  escaped_append fuel set src (mkBuffer m len) = Ok (mkBuffer (m ++ escape set src) len).
Proof.
  induction fuel as [|fuel IH]; intros src m len F L; destruct (span set src) as [run rest] eqn:Sp; destruct (span_split set src _ _ Sp) as (Es & Q & R);
    cbn [escaped_append]; rewrite Sp; unfold used; cbn [b_mem b_len].
  - destruct src; [|cbn in F; lia]. cbn in Sp. injection Sp as <- <-. cbn [List.length andb] in *. cbv zeta. destruct (Z.ltb_spec len (Z.of_nat (List.length m) + Z.of_nat 0)); [cbn in L; lia|].
    cbn [escape flat_map]. reflexivity.
  - rewrite Q, app_length in L. destruct (Z.ltb_spec len (Z.of_nat (List.length m) + Z.of_nat (List.length run))) as [X|X]; [lia|]. rewrite andb_false_r. cbv zeta.
    destruct (Z.ltb_spec len (Z.of_nat (List.length m) + Z.of_nat (List.length run))) as [X1|_]; [lia|].
    destruct rest as [|c rest]; [rewrite Q; unfold escape; cbn [flat_map]; now rewrite app_nil_r|].
    assert (M : escape set (c :: rest) = 92 :: c :: escape set rest) by (unfold escape; cbn [flat_map]; rewrite (R c rest eq_refl); reflexivity).
    rewrite M in *. cbn [List.length] in L. destruct (Z.ltb_spec len (Z.of_nat (List.length m) + Z.of_nat (List.length run) + 2)) as [X1|_]; [lia|].
    rewrite IH.
    + rewrite Q. f_equal. f_equal. rewrite <- !app_assoc. reflexivity.
    + rewrite Es, app_length in F. cbn [List.length] in F. lia.
    + rewrite !app_length. cbn [List.length]. lia.
Qed.
Lemma put_short : forall ps m, Z.of_nat (List.length m + List.length (flat ps)) < 256 -> fold_left put ps (Ok (mkBuffer m 256)) = Ok (mkBuffer (m ++ flat ps) 256).
Proof.
  induction ps as [|p ps IH]; intros m L; cbn [fold_left flat flat_map]; [now rewrite app_nil_r|]. cbn [flat flat_map] in L. fold (flat ps) in *. rewrite app_length in L.
  assert (Q : put (Ok (mkBuffer m 256)) p = Ok (mkBuffer (m ++ flat1 p) 256)).
  { destruct p as [t|set t]; cbn [put flat1] in *; [|apply escaped_short; lia]. unfold append, used. cbn [b_mem b_len].
    destruct (Z.ltb_spec (Z.of_nat (List.length m) + Z.of_nat (List.length t)) 256); [reflexivity|lia]. }
  rewrite Q, IH; [now rewrite app_assoc|]. rewrite app_length. lia.
Qed.
Lemma pieces_line m r re w lt ms tr ed ts :
  option_map flat (all_pieces 0 [Meas m; Tag (lit "Reactor") r; Tag (lit "Reaction") re; FInt (lit "Worker") w; FInt (lit "Logical Time") lt; FInt (lit "Microstep") ms;
    FStr (lit "Trigger Name") tr; FInt (lit "Extra Delay") ed; Ts ts])
  = Some (escape meas_set m ++ lit ",Reactor=" ++ escape key_set r ++ lit ",Reaction=" ++ escape key_set re ++ lit " Worker=" ++ sdec w ++ lit "i,Logical\ Time=" ++ sdec lt
     ++ lit "i,Microstep=" ++ sdec ms ++ lit "i,Trigger\ Name=""" ++ escape [34] tr ++ lit """,Extra\ Delay=" ++ sdec ed ++ lit "i " ++ sdec ts ++ [10]).
Proof.
  cbv [all_pieces pieces type_of key Z.eqb Z.leb Z.ltb Z.compare Pos.compare Pos.compare_cont orb andb option_map Pos.eqb]. cbn [app flat flat_map flat1]. f_equal.
  unfold flat. cbn [flat_map flat1]. fold quote_set. change (escape quote_set tr) with (escape [34] tr).
  generalize (escape meas_set m), (escape key_set r), (escape key_set re), (escape [34] tr), (sdec w), (sdec lt), (sdec ms), (sdec ed), (sdec ts). intros x1 x2 x3 x4 x5 x6 x7 x8 x9.
  rewrite <- !app_assoc. reflexivity.
Qed.

Definition clean (set t : text) : Prop := Forall (fun c => member c set = false) t.
Lemma escape_clean set t : clean set t -> escape set t = t.
Proof. induction 1 as [|c t H _ IH]; [reflexivity|]. unfold escape in *. cbn [flat_map]. rewrite H, IH. reflexivity. Qed.
Definition numeric (t : text) : Prop := Forall (fun c => c = 45 \/ 48 <= c <= 57) t.
Lemma sdec_numeric z : numeric (sdec z).
Proof.
  assert (D : forall n v, 0 <= v -> numeric (dec n v)) by (intros n v V; eapply Forall_impl; [|apply (dec_digits n v V)]; cbv beta; lia).
  unfold sdec. destruct (Z.ltb_spec z 0); [constructor; [auto|]|]; apply D; lia.
Qed.
Lemma sdec_cons z : exists c r, sdec z = c :: r /\ c <> 34.
Proof.
  pose proof (sdec_numeric z) as N. destruct (sdec z) as [|c r] eqn:Q; [|exists c, r; split; [reflexivity|inversion N; lia]].
  exfalso. unfold sdec in Q. destruct (z <? 0); [discriminate|]. cbn [dec] in Q. destruct (z <? 10); [discriminate|]. symmetry in Q. now apply app_cons_not_nil in Q.
Qed.
Lemma member_false c set : Forall (fun x => c <> x) set -> member c set = false.
Proof. induction 1 as [|x set H _ IH]; [reflexivity|]. unfold member in *. cbn [existsb]. rewrite IH. destruct (Z.eqb_spec c x); [contradiction|reflexivity]. Qed.
Lemma numeric_clean set t : Forall (fun x => x <> 45 /\ (x < 48 \/ 57 < x)) set -> numeric t -> clean set t.
Proof.
  intros S0 N. eapply Forall_impl; [|exact N]. cbv beta. intros c C. apply member_false. eapply Forall_impl; [|exact S0]. cbv beta. lia.
Qed.
Lemma key_numeric : Forall (fun x => x <> 45 /\ (x < 48 \/ 57 < x)) key_set.
Proof. unfold key_set. cbn. repeat constructor; lia. Qed.
Lemma meas_numeric : Forall (fun x => x <> 45 /\ (x < 48 \/ 57 < x)) meas_set.
Proof. unfold meas_set. cbn. repeat constructor; lia. Qed.
Lemma three_digits d : 0 <= d < 1000 -> snprintf 4 (sdec d) = sdec d.
Proof.
  intros D. assert (F : forallb (fun k => Nat.leb (List.length (sdec (Z.of_nat k))) 3) (seq 0 1000) = true) by (vm_compute; reflexivity).
  rewrite forallb_forall in F. specialize (F (Z.to_nat d)). rewrite Z2Nat.id in F by lia. unfold snprintf. apply firstn_all2. apply Nat.leb_le. apply F. apply in_seq. change 1000%nat with (Z.to_nat 1000). lia.
Qed.
Lemma no_ctl t : Forall (fun c => 0 < c) t -> c_string t = Ok t.
Proof. induction 1 as [|c t C _ IH]; [reflexivity|]. cbn [c_string]. unfold uninit. destruct (Z.eqb_spec c 0); [lia|]. destruct (Z.eqb_spec c (-1)); [lia|]. now rewrite IH. Qed.
Lemma escape_pos set t : Forall (fun c => 0 < c) t -> Forall (fun c => 0 < c) (escape set t).
Proof. induction 1 as [|c t C _ IH]; [constructor|]. unfold escape in *. cbn [flat_map]. apply Forall_app. split; [|exact IH]. destruct (member c set); repeat constructor; lia. Qed.
Lemma plain_pos t : plain t -> Forall (fun c => 0 < c) t.
Proof. intros H. eapply Forall_impl; [|exact H]. cbv beta. unfold plain_char. lia. Qed.
Lemma tame_pos t : tame_name t -> Forall (fun c => 0 < c) t.
Proof. intros H. eapply Forall_impl; [|exact H]. cbv beta. lia. Qed.
Lemma lit_pos s : forallb (fun c => 0 <? c) (lit s) = true -> Forall (fun c => 0 < c) (lit s).
Proof. intros H. apply Forall_forall. intros c C. rewrite forallb_forall in H. specialize (H c C). lia. Qed.
Lemma line_pos table e : sendable table e -> Forall (fun c => 0 < c) (line_of table e).
Proof.
  intros (_ & R & T & _ & _). unfold line_of. repeat (apply Forall_app; split);
    try (apply lit_pos; reflexivity); try (apply plain_pos, plain_sdec); try (apply escape_pos; first [now apply tame_pos|apply plain_pos, plain_event_name]).
  - destruct (0 <=? dst_id e); [apply plain_pos, plain_sdec|apply lit_pos; reflexivity].
  - repeat constructor.
Qed.
Definition reaction_name (e : entry) : text := if 0 <=? dst_id e then sdec (dst_id e) else lit "none".
Lemma reaction_clean e : clean key_set (reaction_name e).
Proof. unfold reaction_name. destruct (0 <=? dst_id e); [apply (numeric_clean _ _ key_numeric (sdec_numeric _))|]. repeat constructor. Qed.
Lemma format_ok table e : sendable table e -> format_line (point_of table e) = Ok (Some (mkBuffer (line_of table e) 256)).
Proof.
  intros (_ & _ & _ & D & L). unfold format_line, point_of. cbv zeta.
  assert (Q : (if 0 <=? dst_id e then snprintf 4 (sdec (dst_id e)) else lit "none") = reaction_name e) by (unfold reaction_name; destruct (Z.leb_spec 0 (dst_id e)); [apply three_digits; lia|reflexivity]).
  rewrite Q. fold (reactor_of table e). fold (trigger_of table e).
  pose proof (pieces_line (event_name (event_type e)) (reactor_of table e) (reaction_name e) (src_id e) (logical_time e) (microstep e) (trigger_of table e) (extra_delay e) (physical_time e)) as X.
  rewrite (escape_clean key_set _ (reaction_clean e)) in X.
  match type of X with option_map flat ?a = Some ?l => assert (Ln : l = line_of table e) by reflexivity; rewrite Ln in X; destruct a as [ps|]; [|discriminate] end.
  cbn [option_map] in X. assert (Y : flat ps = line_of table e) by congruence. rewrite (put_short ps []) by (cbn [List.length Nat.add]; rewrite Y; exact L).
  cbn [app]. now rewrite Y.
Qed.

(** * Reading *)
Lemma take_escape stops t c rest : member 92 stops = false -> Forall (fun x => x <> 92) t -> member c stops = true -> take stops (escape stops t ++ c :: rest) = (t, c :: rest).
Proof.
  intros B T C. induction T as [|x t X _ IH].
  - cbn [escape flat_map app take]. rewrite C. reflexivity.
  - unfold escape in *. cbn [flat_map]. rewrite <- app_assoc. destruct (member x stops) eqn:M; cbn [app take].
    + rewrite B. cbn [Z.eqb Pos.eqb]. rewrite M, IH. reflexivity.
    + rewrite M. destruct (Z.eqb_spec x 92); [contradiction|]. rewrite IH. reflexivity.
Qed.
Lemma take_clean stops t c rest : member 92 stops = false -> Forall (fun x => x <> 92) t -> clean stops t -> member c stops = true -> take stops (t ++ c :: rest) = (t, c :: rest).
Proof. intros B T C M. rewrite <- (take_escape stops t c rest B T M), (escape_clean _ _ C). reflexivity. Qed.
Lemma numeric_no92 t : numeric t -> Forall (fun x => x <> 92) t.
Proof. intros N. eapply Forall_impl; [|exact N]. cbv beta. lia. Qed.
Definition no92 (t : text) : Prop := Forall (fun x => x <> 92) t.
Lemma fields_int fuel k z s : no92 k -> read_fields (S fuel) (escape key_set k ++ 61 :: sdec z ++ 105 :: 44 :: s) = match read_fields fuel s with Some (l, s) => Some ((k, int z) :: l, s) | None => None end.
Proof.
  intros K. cbn [read_fields]. fold key_set. rewrite take_escape by (auto; reflexivity). destruct (sdec_cons z) as (c & r & Q & N).
  pose proof (take_clean meas_set (sdec z ++ [105]) 44 s eq_refl) as T. rewrite <- app_assoc in T. cbn [app] in T. fold meas_set. rewrite Q in *. cbn [app] in *. destruct (Z.eqb_spec c 34); [contradiction|].
  rewrite T; [unfold int; rewrite Q; reflexivity| | |reflexivity].
  - rewrite app_comm_cons, <- Q. apply Forall_app. split; [apply numeric_no92, sdec_numeric|repeat constructor; discriminate].
  - rewrite app_comm_cons, <- Q. apply Forall_app. split; [apply (numeric_clean _ _ meas_numeric (sdec_numeric z))|repeat constructor].
Qed.
Lemma fields_last fuel k z s : no92 k -> read_fields (S fuel) (escape key_set k ++ 61 :: sdec z ++ 105 :: 32 :: s) = Some ([(k, int z)], 32 :: s).
Proof.
  intros K. cbn [read_fields]. fold key_set. rewrite take_escape by (auto; reflexivity). destruct (sdec_cons z) as (c & r & Q & N).
  pose proof (take_clean meas_set (sdec z ++ [105]) 32 s eq_refl) as T. rewrite <- app_assoc in T. cbn [app] in T. fold meas_set. rewrite Q in *. cbn [app] in *. destruct (Z.eqb_spec c 34); [contradiction|].
  rewrite T; [unfold int; rewrite Q; reflexivity| | |reflexivity].
  - rewrite app_comm_cons, <- Q. apply Forall_app. split; [apply numeric_no92, sdec_numeric|repeat constructor; discriminate].
  - rewrite app_comm_cons, <- Q. apply Forall_app. split; [apply (numeric_clean _ _ meas_numeric (sdec_numeric z))|repeat constructor].
Qed.
Lemma fields_str fuel k t s : no92 k -> no92 t -> read_fields (S fuel) (escape key_set k ++ 61 :: 34 :: escape [34] t ++ 34 :: 44 :: s) = match read_fields fuel s with Some (l, s) => Some ((k, Quoted t) :: l, s) | None => None end.
Proof.
  intros K T. cbn [read_fields]. fold key_set. rewrite take_escape by (auto; reflexivity). cbn [Z.eqb Pos.eqb]. rewrite take_escape by (auto; reflexivity). reflexivity.
Qed.
Lemma tags_one fuel k v c s : no92 k -> no92 v -> c = 44 \/ c = 32 ->
  read_tags (S fuel) (44 :: escape key_set k ++ 61 :: escape key_set v ++ c :: s) = match read_tags fuel (c :: s) with Some (l, s) => Some ((k, v) :: l, s) | None => None end.
Proof.
  intros K V C. cbn [read_tags]. fold key_set. rewrite take_escape by (auto; reflexivity). rewrite take_escape by (auto; destruct C; subst; reflexivity). reflexivity.
Qed.
Lemma tame_no92 t : tame_name t -> no92 t.
Proof. intros H. eapply Forall_impl; [|exact H]. cbv beta. lia. Qed.
Lemma plain_no92 t : plain t -> no92 t.
Proof. intros H. eapply Forall_impl; [|exact H]. cbv beta. unfold plain_char. lia. Qed.
Lemma read_ok table e : sendable table e -> read_line (line_of table e) = Some (meaning table e).
Proof.
  intros (_ & R & T & _ & _). unfold read_line.
  assert (N : exists n, List.length (line_of table e) = (5 + n)%nat).
  { unfold line_of. rewrite app_length.
    match goal with |- context [List.length (lit ",Reactor=" ++ ?x)] => change (List.length (lit ",Reactor=" ++ x)) with (9 + List.length x)%nat; exists (List.length (escape (lit ", ") (event_name (event_type e))) + (4 + List.length x))%nat; lia end. }
  destruct N as [n N]. rewrite N. cbn [Nat.add]. clear N.
  assert (L : line_of table e = escape meas_set (event_name (event_type e)) ++ 44 :: escape key_set (lit "Reactor") ++ 61 :: escape key_set (reactor_of table e)
    ++ 44 :: escape key_set (lit "Reaction") ++ 61 :: escape key_set (reaction_name e) ++ 32 :: escape key_set (lit "Worker") ++ 61 :: sdec (src_id e) ++ 105 :: 44 ::
    escape key_set (lit "Logical Time") ++ 61 :: sdec (logical_time e) ++ 105 :: 44 :: escape key_set (lit "Microstep") ++ 61 :: sdec (microstep e) ++ 105 :: 44 ::
    escape key_set (lit "Trigger Name") ++ 61 :: 34 :: escape [34] (trigger_of table e) ++ 34 :: 44 :: escape key_set (lit "Extra Delay") ++ 61 :: sdec (extra_delay e) ++ 105 :: 32 ::
    sdec (physical_time e) ++ [10]) by (rewrite (escape_clean key_set _ (reaction_clean e)); reflexivity).
  rewrite L. clear L. fold meas_set. rewrite take_escape; [|reflexivity|apply plain_no92, plain_event_name|reflexivity].
  assert (R1 : no92 (reaction_name e)) by (unfold reaction_name; destruct (0 <=? dst_id e); [apply numeric_no92, sdec_numeric|repeat constructor; discriminate]).
  rewrite tags_one; [|repeat constructor; discriminate|now apply tame_no92|auto]. rewrite tags_one; [|repeat constructor; discriminate|exact R1|auto]. cbn [read_tags].
  rewrite fields_int by (repeat constructor; discriminate). rewrite fields_int by (repeat constructor; discriminate). rewrite fields_int by (repeat constructor; discriminate).
  rewrite fields_str by (first [now apply tame_no92|repeat constructor; discriminate]). rewrite fields_last by (repeat constructor; discriminate).
  rewrite (take_clean [10] (sdec (physical_time e)) 10 []); [reflexivity|reflexivity|apply numeric_no92, sdec_numeric| |reflexivity].
  apply numeric_clean; [|apply sdec_numeric]. repeat constructor; lia.
Qed.

(** * Requests *)
Definition lines (table : list object) (l : list entry) : list text := map (line_of table) (filter local l).
Lemma post_ok c token table e : sendable table e -> Z.of_nat (List.length token) <= 98 ->
  post_curl c token (point_of table e) = Ok (mkRequest (snprintf (List.length (line_of table e)) (url c)) (token_line token) (line_of table e)).
Proof.
  intros S0 T. unfold post_curl. rewrite (format_ok table e S0). cbn [b_mem]. rewrite (no_ctl _ (line_pos table e S0)).
  destruct (Z.leb_spec 120 (Z.of_nat (List.length (token_line token)))) as [X|_]; [|reflexivity]. unfold token_line in X. rewrite app_length in X. change (List.length (lit "Authorization: Token ")) with 21%nat in X. lia.
Qed.
Lemma sent_app n : forall codes m, sent codes (n + m) = if Nat.ltb (sent codes n) n then sent codes n else if forallb (Z.eqb 0) (firstn n codes) then (n + sent (skipn n codes) m)%nat else sent codes n.
Proof.
  induction n as [|n IH]; intros codes m; [reflexivity|]. cbn [Nat.add sent]. destruct codes as [|c codes]; cbn [hd tl].
  - cbn [Z.eqb]. rewrite IH. rewrite !firstn_nil, !skipn_nil. cbn [forallb]. change (Nat.ltb (S (sent [] n)) (S n)) with (Nat.ltb (sent [] n) n). now destruct (Nat.ltb (sent [] n) n).
  - cbn [firstn skipn forallb]. rewrite (Z.eqb_sym 0 c). destruct (c =? 0) eqn:Q; cbn [andb].
    + rewrite IH. change (Nat.ltb (S (sent codes n)) (S n)) with (Nat.ltb (sent codes n) n). destruct (Nat.ltb (sent codes n) n); [reflexivity|]. now destruct (forallb _ _).
    + now destruct (Nat.ltb 1 (S n)).
Qed.
Lemma sent_le n : forall codes, (sent codes n <= n)%nat.
Proof. induction n as [|n IH]; intros codes; cbn [sent]; [lia|]. specialize (IH (tl codes)). destruct (hd 0 codes =? 0); lia. Qed.
Lemma write_ok c token table l : forall codes, Forall (fun e => local e = true -> sendable table e) l -> Z.of_nat (List.length token) <= 98 ->
  exists qs cs b, write_block c token table codes l = Ok (qs, cs, b) /\ map q_data qs = firstn (sent codes (List.length (lines table l))) (lines table l)
  /\ (b = true -> forallb (Z.eqb 0) (firstn (List.length (lines table l)) codes) = true /\ cs = skipn (List.length (lines table l)) codes /\ sent codes (List.length (lines table l)) = List.length (lines table l))
  /\ (b = false -> forallb (Z.eqb 0) (firstn (List.length (lines table l)) codes) = false).
Proof.
  induction l as [|e l IH]; intros codes F T; cbn [write_block]; [exists [], codes, true; cbn; repeat split; discriminate|]. inversion F as [|? ? F1 F2]; subst.
  unfold lines, local in *. cbn [filter]. destruct (Z.ltb_spec federated (event_type e)) as [X|X].
  - destruct (Z.leb_spec (event_type e) federated) as [Y|_]; [lia|]. apply (IH codes F2 T).
  - destruct (Z.leb_spec (event_type e) federated) as [_|Y]; [|lia]. specialize (F1 eq_refl). destruct (Z.ltb_spec (event_type e) 0) as [Y|_]; [destruct F1; lia|].
    rewrite (post_ok c token table e F1 T). cbn [map List.length sent]. destruct codes as [|k codes]; cbn [hd tl].
    + cbn [Z.eqb]. destruct (IH [] F2 T) as (qs & cs & b & W & M & A & B). rewrite W. do 3 eexists. split; [reflexivity|]. cbn [map q_data firstn]. rewrite M. split; [reflexivity|].
      rewrite firstn_nil, skipn_nil in *. cbn [skipn forallb] in *. split; [intros Hb; destruct (A Hb) as (_ & -> & ->); auto|intros Hb; specialize (B Hb); discriminate].
    + destruct (Z.eqb_spec k 0) as [->|N].
      * destruct (IH codes F2 T) as (qs & cs & b & W & M & A & B). rewrite W. do 3 eexists. split; [reflexivity|]. cbn [map q_data firstn]. rewrite M. split; [reflexivity|].
        cbn [skipn forallb Z.eqb andb]. split; [intros Hb; destruct (A Hb) as (-> & -> & ->); auto|exact B].
      * do 3 eexists. split; [reflexivity|]. cbn [map q_data firstn]. split; [reflexivity|]. split; [discriminate|]. intros _. cbn [forallb]. destruct (Z.eqb_spec 0 k); [lia|reflexivity].
Qed.
Lemma lines_app table a b : lines table (a ++ b) = lines table a ++ lines table b.
Proof. unfold lines. now rewrite filter_app, map_app. Qed.
Lemma load_ok c token table blocks : forall codes num, Forall (Forall (fun e => local e = true -> sendable table e)) blocks -> Forall (fun b => b <> []) blocks -> Z.of_nat (List.length token) <= 98 ->
  exists qs n, load c token table codes blocks num = Ok (qs, n) /\ map q_data qs = firstn (sent codes (List.length (lines table (concat blocks)))) (lines table (concat blocks)).
Proof.
  induction blocks as [|b blocks IH]; intros codes num F N T; cbn [load concat]; [exists [], num; split; [reflexivity|]; reflexivity|].
  inversion F as [|? ? F1 F2]; subst. inversion N as [|? ? N1 N2]; subst. destruct (Z.eqb_spec (Z.of_nat (List.length b)) 0) as [Z0|_]; [destruct b; [contradiction|cbn in Z0; lia]|].
  destruct (write_ok c token table b codes F1 T) as (qs & cs & ok & W & M & A & B). rewrite W, lines_app, app_length, sent_app. destruct ok.
  - destruct (A eq_refl) as (A1 & -> & A3). rewrite A1, A3, Nat.ltb_irrefl. destruct (IH (skipn (List.length (lines table b)) codes) (Z.of_nat (List.length b)) F2 N2 T) as (rs & n & L & M2). rewrite L.
    do 2 eexists. split; [reflexivity|]. rewrite map_app, M, M2, A3, firstn_app_2, firstn_all. reflexivity.
  - rewrite (B eq_refl). do 2 eexists. split; [reflexivity|]. rewrite M. pose proof (sent_le (List.length (lines table b)) codes) as Le.
    assert (Q : (if Nat.ltb (sent codes (List.length (lines table b))) (List.length (lines table b)) then sent codes (List.length (lines table b)) else sent codes (List.length (lines table b))) = sent codes (List.length (lines table b))) by now destruct (Nat.ltb _ _).
    rewrite Q, firstn_app. replace (sent codes (List.length (lines table b)) - List.length (lines table b))%nat with 0%nat by lia. cbn [firstn]. now rewrite app_nil_r.
Qed.
