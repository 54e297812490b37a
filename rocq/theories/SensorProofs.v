From Verif Require Import Base Sensor SensorSpec.
Local Open Scope Z_scope.

Lemma render_plain t : ~ In 37 t -> render t = Some t.
Proof.
  induction t as [|c t IH]; intros H; [reflexivity|]. cbn [render]. destruct (Z.eqb_spec c 37) as [->|_]; [exfalso; apply H; left; reflexivity|].
  rewrite IH; [reflexivity|]. intros X. apply H. right. exact X.
Qed.
Definition text (m : message) : list Z := match m with Line t | Tick t => t end.
Definition clean (m : message) : Prop := ~ In 37 (text m).

Lemma show_all_clean c : forall l s, Forall clean l -> exists s', show_all c s l = Ok s' /\ map content (display s') = map content (display s) ++ l /\ queue s' = queue s /\ out s' = out s /\ logging s' = logging s.
Proof.
  induction l as [|m l IH]; intros s F; [exists s; rewrite app_nil_r; repeat split; reflexivity|]. inversion F as [|? ? C F1]; subst. cbn [show_all].
  assert (X : exists s1, show_one c s m = Ok s1 /\ map content (display s1) = map content (display s) ++ [m] /\ queue s1 = queue s /\ out s1 = out s /\ logging s1 = logging s).
  { unfold clean in C. destruct m as [t|t]; cbn [text] in C; cbn [show_one]; rewrite (render_plain t C).
    - eexists. split; [reflexivity|]. cbn. rewrite map_app. repeat split; reflexivity.
    - cbv zeta. destruct (if tick_w c - 1 <=? tick_x s + Z.of_nat (length t) then _ else _) as [x y]. eexists. split; [reflexivity|]. cbn. rewrite map_app. repeat split; reflexivity. }
  destruct X as (s1 & -> & A & B & C1 & D). destruct (IH s1 F1) as (s' & E1 & E2 & E3 & E4 & E5). exists s'. split; [exact E1|].
  rewrite E2, A, E3, E4, E5, B, C1, D, <- app_assoc. repeat split; reflexivity.
Qed.
Lemma register_frame key a s : queue (fst (register key a s)) = queue s /\ display (fst (register key a s)) = display s /\ out (fst (register key a s)) = out s /\ logging (fst (register key a s)) = logging s /\
  tick_x (fst (register key a s)) = tick_x s /\ tick_y (fst (register key a s)) = tick_y s /\ print_y (fst (register key a s)) = print_y s /\ scheduled (fst (register key a s)) = scheduled s.
Proof.
  unfold register. destruct a as [a|]; [|repeat split; reflexivity]. destruct (_ && _); [repeat split; reflexivity|].
  destruct (key =? NEWLINE); [destruct (newline s); repeat split; reflexivity|]. destruct (key =? 0); [destruct (any_key s); repeat split; reflexivity|].
  destruct (table s _); repeat split; reflexivity.
Qed.
Lemma shows c log : forall l s, Forall (plain log) l -> out s = Running -> logging s = log -> Forall clean (queue s) ->
  exists s', run c s l = Ok s' /\ map content (display s') ++ queue s' = map content (display s) ++ queue s ++ posted l /\ out s' = Running /\ logging s' = log /\ Forall clean (queue s').
Proof.
  induction l as [|o l IH]; intros s F R L Q; [exists s; cbn; rewrite app_nil_r; repeat split; assumption|].
  inversion F as [|? ? P F1]; subst. cbn [run]. destruct o as [b|k a|k|t args|t| |]; cbn [plain] in P; try contradiction; cbn [step posted].
  - destruct (register_frame k a s) as (A1 & A2 & A3 & A4 & _).
    destruct (IH (fst (register k a s)) F1) as (s' & E1 & E2 & E3); [congruence|exact A4|rewrite A1; exact Q|]. exists s'. rewrite A1, A2 in E2. split; [exact E1|split; [exact E2|exact E3]].
  - destruct (IH (typed k s) F1 R eq_refl Q) as (s' & E1 & E2 & E3). exists s'. split; [exact E1|split; [exact E2|exact E3]].
  - rewrite R. destruct P as [P1 P2]. replace (logging s && args) with false by (destruct (logging s); [rewrite P2; reflexivity|reflexivity]).
    destruct (IH (set_queue (queue s ++ [Line t]) s) F1 R eq_refl) as (s' & E1 & E2 & E3).
    + cbn [queue set_queue]. apply Forall_app. split; [exact Q|]. constructor; [exact P1|constructor].
    + exists s'. split; [exact E1|]. split; [|exact E3]. rewrite E2. cbn [queue set_queue display]. rewrite <- !app_assoc. reflexivity.
  - destruct (IH (set_queue (queue s ++ [Tick t]) s) F1 R eq_refl) as (s' & E1 & E2 & E3).
    + cbn [queue set_queue]. apply Forall_app. split; [exact Q|]. constructor; [exact P|constructor].
    + exists s'. split; [exact E1|]. split; [|exact E3]. rewrite E2. cbn [queue set_queue display]. rewrite <- !app_assoc. reflexivity.
  - rewrite R. unfold flush. destruct (show_all_clean c (queue s) (set_queue [] s) Q) as (s1 & E & D1 & D2 & D3 & D4). rewrite E.
    cbn [queue set_queue display out logging] in *. destruct (IH s1 F1) as (s' & E1 & E2 & E3); [congruence|exact D4|rewrite D2; constructor|].
    exists s'. split; [exact E1|]. split; [|exact E3]. rewrite E2, D1, D2. rewrite <- app_assoc. reflexivity.
Qed.
Lemma run_app c l1 l2 s : run c s (l1 ++ l2) = match run c s l1 with Ok s => run c s l2 | UB => UB end.
Proof. revert s. induction l1 as [|o l1 IH]; intros s; [reflexivity|]. cbn [run app]. destruct (step c s o); [apply IH|reflexivity]. Qed.
Lemma all_shown c log l : Forall (plain log) l ->
  (exists s, run c init (Start log :: l) = Ok s /\ map content (display s) ++ queue s = posted l) /\
  (exists s, run c init (Start log :: l ++ [Finish]) = Ok s /\ map content (display s) = posted l /\ queue s = []).
Proof.
  intros F. change (Start log :: l ++ [Finish]) with ([Start log] ++ (l ++ [Finish])). change (Start log :: l) with ([Start log] ++ l). rewrite !run_app.
  cbn [run step out init]. set (s0 := mkState _ _ _ _ _ _ _ _ _ _ _).
  destruct (shows c log l s0 F eq_refl eq_refl (Forall_nil _)) as (s & E1 & E2 & E3 & E4 & E5). cbn [display queue map app s0] in E2. split.
  - exists s. split; [exact E1|exact E2].
  - rewrite run_app, E1. cbn [run step]. rewrite E3. unfold flush. destruct (show_all_clean c (queue s) (set_queue [] s) E5) as (s1 & E & D1 & D2 & _). rewrite E.
    exists (set_out Joined s1). split; [reflexivity|]. cbn [display queue set_out set_queue] in *. split; [rewrite D1; exact E2|exact D2].
Qed.

(** ** Positions *)
Definition placed (c : config) (s : state) : Prop :=
  Forall (inside c) (display s) /\ (out s = Running -> 1 <= tick_x s <= tick_w c - 2 /\ 1 <= tick_y s <= tick_h c - 2 /\ 0 <= print_y s <= print_h c - 2).
Lemma placed_show c : 3 <= tick_w c -> 3 <= tick_h c -> 2 <= print_h c -> forall l s s', out s = Running -> placed c s -> show_all c s l = Ok s' -> placed c s'.
Proof.
  intros W H P. induction l as [|m l IH]; intros s s' R PL E; [injection E as <-; exact PL|]. cbn [show_all] in E.
  destruct (show_one c s m) as [s1|] eqn:E1; [|discriminate]. destruct PL as [F B]. destruct (B R) as (X & Y & Z0).
  assert (Q : out s1 = Running /\ placed c s1).
  { destruct m as [t|t]; cbn [show_one] in E1; destruct (render t) as [r|]; try discriminate.
    - injection E1 as <-. cbn [out]. split; [exact R|]. split; cbn [display out tick_x tick_y print_y].
      + apply Forall_app. split; [exact F|]. constructor; [exact Z0|constructor].
      + intros _. split; [exact X|]. split; [exact Y|]. destruct (Z.leb_spec (print_h c - 1) (print_y s + 1)); lia.
    - cbv zeta in E1. destruct (Z.leb_spec (tick_w c - 1) (tick_x s + Z.of_nat (length t))) as [G|G]; injection E1 as <-; cbn [out]; (split; [exact R|]); (split; cbn [display out tick_x tick_y print_y];
        [apply Forall_app; split; [exact F|]; constructor; [split; assumption|constructor]|intros _; split; [lia|split; [|exact Z0]]]).
      + destruct (Z.leb_spec (tick_h c - 1) (tick_y s + 1)); lia.
      + destruct (Z.leb_spec (tick_h c - 1) (tick_y s)); lia. }
  destruct Q as [R1 PL1]. exact (IH s1 s' R1 PL1 E).
Qed.
Lemma placed_step c s o s' : 3 <= tick_w c -> 3 <= tick_h c -> 2 <= print_h c -> placed c s -> step c s o = Ok s' -> placed c s'.
Proof.
  intros W H P PL E. destruct o as [b|k a|k|t args|t| |]; cbn [step] in E.
  - destruct PL as [F B]. destruct (out s); [|discriminate|]; (injection E as <-; split; [exact F|intros _; cbn; lia]).
  - injection E as <-. destruct PL as [F B]. destruct (register_frame k a s) as (A1 & A2 & A3 & A4 & A5 & A6 & A7 & _). split; [rewrite A2; exact F|]. rewrite A3, A5, A6, A7. exact B.
  - injection E as <-. exact PL.
  - destruct (out s) eqn:R; [injection E as <-; exact PL| |injection E as <-; exact PL]. destruct (_ && _); [discriminate|]. injection E as <-. exact PL.
  - injection E as <-. exact PL.
  - destruct (out s) eqn:R; [injection E as <-; exact PL| |injection E as <-; exact PL]. unfold flush in E. exact (placed_show c W H P (queue s) (set_queue [] s) s' R PL E).
  - destruct (out s) eqn:R; try discriminate. destruct (flush c s) as [s1|] eqn:FL; [|discriminate]. injection E as <-. unfold flush in FL.
    pose proof (placed_show c W H P (queue s) (set_queue [] s) s1 R PL FL) as [F _]. split; [exact F|discriminate].
Qed.
Lemma placed_run c : 3 <= tick_w c -> 3 <= tick_h c -> 2 <= print_h c -> forall l s s', placed c s -> run c s l = Ok s' -> placed c s'.
Proof.
  intros W H P. induction l as [|o l IH]; intros s s' PL E; [injection E as <-; exact PL|]. cbn [run] in E. destruct (step c s o) as [s1|] eqn:E1; [|discriminate].
  exact (IH s1 s' (placed_step c s o s1 W H P PL E1) E).
Qed.

(** ** Keys *)
Definition look (key : Z) (s : state) : option nat := if key =? NEWLINE then newline s else if key =? 0 then any_key s else table s (key - 32).
Lemma supported_dec key : negb (key =? NEWLINE) && negb (key =? 0) && ((key - 32 <? 0) || (TABLE_SIZE <=? key - 32)) = false <-> supported key.
Proof.
  unfold supported, NEWLINE, TABLE_SIZE. destruct (Z.eqb_spec key 10); destruct (Z.eqb_spec key 0); destruct (Z.ltb_spec (key - 32) 0); destruct (Z.leb_spec 96 (key - 32)); cbn; split; intros; try discriminate; try reflexivity; lia.
Qed.
Lemma register_look key a s k : supported k ->
  look k (fst (register key a s)) = match look k s with Some x => Some x | None => match a with Some a => if key =? k then Some a else None | None => None end end.
Proof.
  intros SK. unfold register. destruct a as [a|]; [|cbn [fst]; destruct (look k s); reflexivity].
  destruct (negb (key =? NEWLINE) && negb (key =? 0) && ((key - 32 <? 0) || (TABLE_SIZE <=? key - 32))) eqn:U.
  - cbn [fst]. destruct (Z.eqb_spec key k) as [->|]; [apply supported_dec in SK; congruence|]. destruct (look k s); reflexivity.
  - apply supported_dec in U. unfold look. destruct (Z.eqb_spec key NEWLINE) as [->|N1].
    + destruct (newline s) as [x|] eqn:NL; cbn [fst newline any_key table].
      * destruct (Z.eqb_spec k NEWLINE) as [->|N2]; [rewrite NL; reflexivity|]. destruct (Z.eqb_spec NEWLINE k); [congruence|]. destruct (k =? 0); [destruct (any_key s); reflexivity|destruct (table s _); reflexivity].
      * destruct (Z.eqb_spec k NEWLINE) as [->|N2]; [rewrite ?NL; reflexivity|]. destruct (Z.eqb_spec NEWLINE k); [congruence|]. destruct (k =? 0); [destruct (any_key s); reflexivity|destruct (table s _); reflexivity].
    + destruct (Z.eqb_spec key 0) as [->|N0].
      * destruct (any_key s) as [x|] eqn:AK; cbn [fst newline any_key table].
        -- destruct (Z.eqb_spec k NEWLINE) as [->|N2]; [destruct (newline s); reflexivity|]. destruct (Z.eqb_spec k 0) as [->|N3]; [rewrite AK; reflexivity|]. destruct (Z.eqb_spec 0 k); [congruence|]. destruct (table s _); reflexivity.
        -- destruct (Z.eqb_spec k NEWLINE) as [->|N2]; [destruct (newline s); reflexivity|]. destruct (Z.eqb_spec k 0) as [->|N3]; [rewrite ?AK; reflexivity|]. destruct (Z.eqb_spec 0 k); [congruence|]. destruct (table s _); reflexivity.
      * destruct (table s (key - 32)) as [x|] eqn:TB; cbn [fst newline any_key table].
        -- destruct (Z.eqb_spec k NEWLINE) as [->|N2]; [destruct (Z.eqb_spec key NEWLINE); [congruence|]; destruct (newline s); reflexivity|]. destruct (Z.eqb_spec k 0) as [->|N3]; [destruct (Z.eqb_spec key 0); [congruence|]; destruct (any_key s); reflexivity|].
           destruct (Z.eqb_spec key k) as [->|N4]; [rewrite TB; reflexivity|]. destruct (table s (k - 32)); reflexivity.
        -- destruct (Z.eqb_spec k NEWLINE) as [->|N2]; [destruct (Z.eqb_spec key NEWLINE); [congruence|]; destruct (newline s); reflexivity|]. destruct (Z.eqb_spec k 0) as [->|N3]; [destruct (Z.eqb_spec key 0); [congruence|]; destruct (any_key s); reflexivity|].
           unfold zupd. destruct (Z.eqb_spec key k) as [->|N4]; [rewrite Z.eqb_refl, TB; reflexivity|]. destruct (Z.eqb_spec (k - 32) (key - 32)); [lia|]. destruct (table s (k - 32)); reflexivity.
Qed.
Definition reg_all (rs : list (Z * option nat)) (s : state) : state := fold_left (fun s r => fst (register (fst r) (snd r) s)) rs s.
Lemma reg_look k : supported k -> forall rs s, look k (reg_all rs s) = match look k s with Some x => Some x | None => first k rs end.
Proof.
  intros SK. induction rs as [|[key a] rs IH]; intros s; [cbn; destruct (look k s); reflexivity|]. cbn [reg_all fold_left fst snd]. fold (reg_all rs (fst (register key a s))).
  rewrite IH, register_look by exact SK. cbn [first]. destruct (look k s); [reflexivity|]. destruct a as [a|]; [|reflexivity]. destruct (key =? k); reflexivity.
Qed.
Lemma reg_scheduled rs : forall s, scheduled (reg_all rs s) = scheduled s.
Proof. induction rs as [|[k a] rs IH]; intros s; [reflexivity|]. cbn [reg_all fold_left fst snd]. fold (reg_all rs (fst (register k a s))). rewrite IH. apply register_frame. Qed.
Lemma run_regs c rs s : run c s (map (fun r => Register (fst r) (snd r)) rs) = Ok (reg_all rs s).
Proof. revert s. induction rs as [|[k a] rs IH]; intros s; [reflexivity|]. cbn [map run step fst snd]. rewrite IH. reflexivity. Qed.
Lemma register_code key a s : snd (register key a s) = match a with None => 3 | Some _ => if negb (key =? NEWLINE) && negb (key =? 0) && ((key - 32 <? 0) || (TABLE_SIZE <=? key - 32)) then 2 else match look key s with Some _ => 1 | None => 0 end end.
Proof.
  unfold register, look. destruct a as [a|]; [|reflexivity]. destruct (_ && _); [reflexivity|]. destruct (key =? NEWLINE); [destruct (newline s); reflexivity|].
  destruct (key =? 0); [destruct (any_key s); reflexivity|]. destruct (table s _); reflexivity.
Qed.
Lemma key_typed c log rs k : 1 <= k < 256 -> exists s, run c init (Start log :: map (fun r => Register (fst r) (snd r)) rs ++ [Typed k]) = Ok s /\
  scheduled s = map (fun a => (a, k)) (option_list (if (k =? 10) || ((32 <=? k) && (k <=? 127)) then first k rs else None) ++ option_list (first 0 rs)).
Proof.
  intros K. cbn [run step out init]. set (s0 := mkState _ _ _ _ _ _ _ _ _ _ _). rewrite run_app, run_regs. cbn [run step]. eexists. split; [reflexivity|].
  unfold typed. cbn [scheduled]. rewrite reg_scheduled, Z.mod_small by lia. change (scheduled s0) with (@nil (nat * Z)). cbn [app].
  assert (AK : any_key (reg_all rs s0) = first 0 rs) by exact (reg_look 0 ltac:(right; left; reflexivity) rs s0).
  rewrite AK, map_app. f_equal; [|destruct (first 0 rs); reflexivity]. unfold NEWLINE.
  destruct (Z.eqb_spec k 10) as [->|N10]; cbn [andb orb].
  - assert (NL : newline (reg_all rs s0) = first 10 rs) by exact (reg_look 10 ltac:(left; reflexivity) rs s0). rewrite NL. destruct (first 10 rs); reflexivity.
  - unfold TABLE_SIZE. destruct (Z.leb_spec 0 (k - 32)); destruct (Z.ltb_spec (k - 32) 96); destruct (Z.leb_spec 32 k); destruct (Z.leb_spec k 127); try lia; cbn [andb]; try reflexivity.
    assert (TB : look k (reg_all rs s0) = first k rs) by (rewrite reg_look by (right; right; lia); unfold look; unfold NEWLINE; destruct (Z.eqb_spec k 10); [lia|]; destruct (Z.eqb_spec k 0); [lia|]; reflexivity).
    unfold look, NEWLINE in TB. destruct (Z.eqb_spec k 10); [lia|]. destruct (Z.eqb_spec k 0); [lia|]. rewrite TB. destruct (first k rs); reflexivity.
Qed.
