(** Proofs about stop requests in programs that are not federated. *)
From Verif Require Import Base Tag TagSpec TagProofs RequestStop RequestStopSpec.
From Verif Require TagBarrier TagBarrierProofs.
Import TagBarrierProofs.

Lemma head_spec' l : match head l with Some h => In h l /\ forall t, In t l -> tag_le h t | None => l = [] end.
Proof. exact (TagBarrierProofs.head_spec l). Qed.

Lemma bump_lt t : tag_ok t -> tmicro t + 1 < two32 -> tag_ok (bump t) /\ tag_lt t (bump t) /\ tmicro (bump t) = tmicro t + 1.
Proof.
  intros (A & B) C. unfold bump, tag_ok, tag_lt, in_uint32, UINT_MAX, two32 in *. cbn [ttime tmicro] in *.
  rewrite Z.mod_small by lia. repeat split; try lia; try exact A; try (apply A).
Qed.

Record einv (K top : Z) (e : env) : Prop := {
  e_cur : tag_ok (cur e) /\ ttime (cur e) < FOREVER /\ tmicro (cur e) <= K;
  e_stop : tag_ok (stop e) /\ (tmicro (stop e) <= K \/ ttime (stop e) = FOREVER);
  e_low : tmicro (cur e) < top \/ tag_le (stop e) (cur e);
  e_q : forall t, In t (q e) -> tag_ok t /\ tmicro t < top /\ tag_lt (cur e) t }.

Lemma einv_mono K K' top e : K <= K' -> einv K top e -> einv K' top e.
Proof. intros L [A B C D]. split; auto; [destruct A as (A1 & A2 & A3); repeat split; try apply A1; try lia|destruct B as (B1 & [B2|B2]); split; auto; left; lia]. Qed.

Lemma einv_set_stop K top e t : einv K top e -> tag_ok t -> tmicro t <= K -> (tag_lt (cur e) t -> tmicro (cur e) < top \/ tag_le (stop e) (cur e)) -> (tag_le t (cur e) -> True) -> einv K top (set_stop e t).
Proof.
  intros [A B C D] T1 T2 _ _. unfold set_stop. split; cbn [cur stop q]; auto.
  - destruct (tag_compare t (stop e) <? 0); auto.
  - destruct (tag_compare t (stop e) <? 0) eqn:E; auto. apply cmp_lt0 in E. destruct C as [C|C]; auto. right.
    apply tag_lt_le. now apply tag_lt_le_trans with (stop e).
Qed.

Lemma set_stop_spec e t : stop (set_stop e t) = t /\ tag_lt t (stop e) \/ set_stop e t = e /\ tag_le (stop e) t.
Proof.
  unfold set_stop. destruct (tag_compare t (stop e) <? 0) eqn:E; [left|right].
  - apply cmp_lt0 in E. auto.
  - apply cmp_lt0f in E. destruct e; auto.
Qed.

Lemma next_event_spec K top e : einv K top e -> let t := next_event e in
  tag_ok t /\ tag_le t (stop e) /\ (forall u, In u (q e) -> tag_le t u) /\ (t = stop e \/ tmicro t < top /\ tag_lt (cur e) t /\ tag_le t (stop e)).
Proof.
  intros I. cbn zeta. unfold next_event. pose proof (head_spec' (q e)) as H. destruct (head (q e)) as [h|].
  - destruct H as (H1 & H2). destruct (e_q _ _ _ I h H1) as (O & M & L). destruct (0 <? tag_compare h (stop e)) eqn:C.
    + apply cmp_gt0 in C. split; [apply (e_stop _ _ _ I)|]. split; [apply tag_le_refl|]. split; [|now left].
      intros u Hu. eapply tag_le_trans; [apply tag_lt_le, C|auto].
    + apply cmp_gt0f in C. split; [exact O|]. split; [exact C|]. split; [exact H2|right; auto].
  - rewrite H. assert ((if 0 <? tag_compare FOREVER_TAG (stop e) then stop e else FOREVER_TAG) = stop e) as ->.
    { destruct (0 <? tag_compare FOREVER_TAG (stop e)) eqn:C; [reflexivity|]. apply cmp_gt0f in C. apply tag_le_antisym; [exact C|]. apply tag_forever_greatest, (e_stop _ _ _ I). }
    split; [apply (e_stop _ _ _ I)|]. split; [apply tag_le_refl|]. split; [intros u []|now left].
Qed.

Definition starve (enclaves keepalive : bool) (e : env) : env :=
  if (if enclaves then tag_compare (next_event e) FOREVER_TAG =? 0 else match q e with [] => true | _ => false end) && negb keepalive
  then set_stop e (bump (cur e)) else e.

Lemma starve_spec K top enc ka e : einv K top e -> top <= K -> K + 1 < two32 ->
  let e' := starve enc ka e in
  einv K top e' /\ cur e' = cur e /\ q e' = q e /\ asleep e' = asleep e /\ ended e' = ended e /\ tag_le (stop e') (stop e) /\ (tag_lt (cur e) (stop e) -> tag_lt (cur e) (stop e')).
Proof.
  intros I L1 L2. cbn zeta. unfold starve. destruct (_ && _); [|repeat (split; auto); apply I || apply tag_le_refl].
  destruct (e_cur _ _ _ I) as (C1 & C2 & C3). destruct (bump_lt (cur e) C1 ltac:(lia)) as (B1 & B2 & B3).
  destruct (set_stop_spec e (bump (cur e))) as [(E1 & E2)|(E1 & E2)].
  - assert (tmicro (cur e) < top) as M. { destruct (e_low _ _ _ I) as [M|M]; [exact M|]. exfalso. apply (tag_lt_irrefl (cur e)). eapply tag_lt_le_trans; [|exact M]. now apply tag_lt_trans with (bump (cur e)). }
    split; [apply einv_set_stop; auto; lia|]. do 4 (split; [reflexivity|]). rewrite E1. split; [now apply tag_lt_le|auto].
  - rewrite E1. repeat (split; auto); try apply I. apply tag_le_refl.
Qed.

Lemma next_locked_unfold enc ka i g e : next_locked enc ka i g e =
  if enc && negb g then (e, []) else
    let e := starve enc ka e in let next := next_event e in
    if ttime next =? FOREVER then (mkEnv (cur e) (stop e) (q e) true (ended e), [])
    else if (0 <=? tag_compare next (stop e)) && (0 <=? tag_compare (cur e) (stop e)) then (e, [])
    else (mkEnv next (stop e) (filter (fun t => negb (tag_compare t next =? 0)) (q e)) false (ended e), if 0 <=? tag_compare next (stop e) then [Shutdown i next] else []).
Proof. reflexivity. Qed.

Lemma next_locked_spec K top enc ka i g e e' es : einv K top e -> top <= K -> K + 1 < two32 -> next_locked enc ka i g e = (e', es) ->
  einv K top e' /\ tag_le (stop e') (stop e) /\ tag_le (cur e) (cur e') /\
  (asleep e' = true -> asleep e = true \/ ttime (stop e') = FOREVER) /\
  (es = [] /\ cur e' = cur e /\ (tag_lt (cur e) (stop e) -> tag_lt (cur e') (stop e')) \/
   es = [] /\ tag_lt (cur e) (stop e) /\ tag_lt (cur e') (stop e') \/
   es = [Shutdown i (cur e')] /\ tag_lt (cur e) (stop e) /\ stop e' = cur e').
Proof.
  intros I L1 L2. rewrite next_locked_unfold. destruct (enc && negb g).
  - intros H. injection H as <- <-. split; [exact I|]. split; [apply tag_le_refl|]. split; [apply tag_le_refl|]. auto 6.
  - cbv zeta. destruct (starve_spec K top enc ka e I L1 L2) as (I' & S1 & S2 & S3 & S4 & S5 & S6). set (e1 := starve enc ka e) in *. clearbody e1.
    destruct (next_event_spec _ _ _ I') as (N1 & N2 & N3 & N4). set (t := next_event e1) in *. clearbody t.
    destruct (ttime t =? FOREVER) eqn:F.
    + intros H. injection H as <- <-. cbn [cur stop q asleep]. rewrite S1. split; [destruct I' as [A B C D]; split; cbn [cur stop q]; auto; now rewrite <- S1|].
      split; [exact S5|]. split; [apply tag_le_refl|]. split.
      * intros _. right. apply Z.eqb_eq in F. destruct (e_stop _ _ _ I') as ((A & _) & _). destruct N2 as [N2|[N2 _]]; rewrite F in *; unfold in_int64, FOREVER, LLONG_MAX in *; lia.
      * left. auto.
    + destruct ((0 <=? tag_compare t (stop e1)) && (0 <=? tag_compare (cur e1) (stop e1))) eqn:G.
      * intros H. injection H as <- <-. split; [exact I'|]. split; [exact S5|]. split; [rewrite S1; apply tag_le_refl|]. split; [rewrite S3; auto|]. left. rewrite S1. auto.
      * intros H. injection H as <- <-. cbn [cur stop q asleep].
        assert (tag_lt (cur e1) (stop e1)) as Lt.
        { rewrite <- tag_not_le. intros K1. assert (t = stop e1) as K2. { destruct N4 as [N4|(_ & N4 & N5)]; [exact N4|]. exfalso. apply (tag_lt_irrefl (cur e1)). eapply tag_lt_le_trans; [exact N4|]. now apply tag_le_trans with (stop e1). }
          rewrite K2 in G. apply cmp_ge0 in K1. rewrite K1 in G. assert (0 <=? tag_compare (stop e1) (stop e1) = true) as Q by (apply cmp_ge0, tag_le_refl). rewrite Q in G. discriminate. }
        assert (tag_lt (cur e) t) as Lt'. { rewrite <- S1. destruct N4 as [->|(_ & N4 & _)]; auto. }
        assert (tag_lt (cur e) (stop e)) as Lt2. { rewrite <- S1. now apply tag_lt_le_trans with (stop e1). }
        split; [|split; [exact S5|split; [now apply tag_lt_le|split; [discriminate|]]]].
        -- destruct I' as [A B C D]. split; cbn [cur stop q].
           ++ split; [exact N1|]. apply Z.eqb_neq in F. split; [destruct N1 as ((_ & N1) & _); unfold FOREVER, LLONG_MAX in *; lia|]. destruct N4 as [->|(N4 & _)]; [|lia]. destruct B as (_ & [B|B]); [exact B|congruence].
           ++ exact B.
           ++ destruct N4 as [->|(N4 & _)]; [right; apply tag_le_refl|now left].
           ++ intros u Hu. apply filter_In in Hu. destruct Hu as (Hu & Hn). destruct (D u Hu) as (D1 & D2 & D3). split; [exact D1|]. split; [exact D2|].
              destruct (proj1 (tag_le_lt_or_eq _ _) (N3 u Hu)) as [Q|Q]; [exact Q|]. subst u. assert (tag_compare t t = 0) as Z by now apply tag_compare_eq. rewrite Z in Hn. discriminate.
        -- destruct (0 <=? tag_compare t (stop e1)) eqn:M.
           ++ apply cmp_ge0 in M. right. right. split; [reflexivity|]. split; [exact Lt2|]. now apply tag_le_antisym.
           ++ apply cmp_ge0f in M. auto.
Qed.

Section Inv.
Variable n : nat.
Variable enc ka : bool.
Variable inside : option nat.
Variable top : Z.
Hypothesis Htop : top + 2 < two32.
Hypothesis Htop0 : 0 <= top.

Definition lim (p : phase) : Z := match p with NotYet | Collecting _ _ => top | _ => top + 1 end.
Definition prot (s : state) (i : nat) : Prop := inside = Some i \/ ph s = NotYet.
Definition max_ok (s : state) (j : nat) (m : tag) : Prop :=
  tag_ok m /\ ttime m < FOREVER /\ tmicro m <= top /\ forall i, inside = Some i -> (i < j)%nat -> tag_le (cur (envs s i)) m.

Record inv (s : state) (es : list event) : Prop := {
  g_env : forall i, einv (lim (ph s)) top (envs s i);
  g_once : forall i, (i < n)%nat -> shutdowns i es = [] \/ exists t, shutdowns i es = [t] /\ tag_le (stop (envs s i)) (cur (envs s i));
  g_prot : forall i, (i < n)%nat -> prot s i -> shutdowns i es = [] /\ tag_lt (cur (envs s i)) (stop (envs s i)) \/ shutdowns i es = [cur (envs s i)];
  g_max : match ph s with Collecting j m => max_ok s j m | Setting j m => max_ok s n m | _ => True end;
  g_ends : forall i, (i < n)%nat -> prot s i -> In (Ends i) es -> shutdowns i es <> [];
  g_set : forall i c t, (i < n)%nat -> inside = Some i -> In (StopSet i c t) es -> tag_lt c t \/ In (Shutdown i c) es;
  g_sleep : asleep (envs s 0%nat) = true -> ttime (stop (envs s 0%nat)) = FOREVER;
  g_fin : match ph s with Setting j _ => (0 < j)%nat -> ttime (stop (envs s 0%nat)) < FOREVER | Requested => (0 < n)%nat -> ttime (stop (envs s 0%nat)) < FOREVER | _ => True end }.

Lemma shutdowns_app i a b : shutdowns i (a ++ b) = shutdowns i a ++ shutdowns i b.
Proof. apply flat_map_app. Qed.
Lemma shutdowns_in i es t : In t (shutdowns i es) <-> In (Shutdown i t) es.
Proof.
  unfold shutdowns. rewrite in_flat_map. split.
  - intros (e & H1 & H2). destruct e as [j u|j|j c u]; cbn in H2; try easy. destruct (Nat.eqb_spec j i); [|easy]. subst j. destruct H2 as [<-|[]]. exact H1.
  - intros H. exists (Shutdown i t). split; [exact H|]. cbn. rewrite Nat.eqb_refl. now left.
Qed.
Lemma upd_same f i e : upd f i e i = e. Proof. unfold upd. now rewrite Nat.eqb_refl. Qed.
Lemma upd_other f i j e : j <> i -> upd f i e j = f j. Proof. intros H. unfold upd. now rewrite (proj2 (Nat.eqb_neq j i) H). Qed.

Lemma init_inv start stops : start_ok top start stops -> inv (init start stops) (init_events n start stops).
Proof.
  intros [A B C D]. 
  assert (forall i, (i < n)%nat -> shutdowns i (init_events n start stops) = if 0 <=? tag_compare start (stops i) then [start] else []) as Sh.
  { intros i Hi. unfold init_events, shutdowns. assert (forall l k, In i (seq k l) \/ ~ In i (seq k l)) as Dec by (intros; destruct (in_dec Nat.eq_dec i (seq k l)); auto).
    assert (forall l k, flat_map (fun e => match e with Shutdown j t => if Nat.eqb j i then [t] else [] | _ => [] end) (flat_map (fun i => if 0 <=? tag_compare start (stops i) then [Shutdown i start] else []) (seq k l)) = if (k <=? i)%nat && (i <? k + l)%nat then (if 0 <=? tag_compare start (stops i) then [start] else []) else []) as G.
    { induction l as [|l IH]; intros k; cbn [seq flat_map].
      - destruct ((k <=? i)%nat) eqn:E1; destruct ((i <? k + 0)%nat) eqn:E2; cbn; try reflexivity. apply Nat.leb_le in E1. apply Nat.ltb_lt in E2. lia.
      - rewrite flat_map_app, IH. destruct (Nat.eq_dec k i) as [->|Ne].
        + replace (S i <=? i)%nat with false by (symmetry; apply Nat.leb_gt; lia). rewrite Nat.leb_refl. replace (i <? i + S l)%nat with true by (symmetry; apply Nat.ltb_lt; lia). cbn [andb]. rewrite app_nil_r.
          destruct (0 <=? tag_compare start (stops i)); cbn; [now rewrite Nat.eqb_refl|reflexivity].
        + assert (flat_map (fun e => match e with Shutdown j t => if Nat.eqb j i then [t] else [] | _ => [] end) (if 0 <=? tag_compare start (stops k) then [Shutdown k start] else []) = []) as ->.
          { destruct (0 <=? tag_compare start (stops k)); cbn; [|reflexivity]. now rewrite (proj2 (Nat.eqb_neq k i) Ne). }
          cbn [app]. replace (S k <=? i)%nat with (k <=? i)%nat. 2:{ destruct (k <=? i)%nat eqn:E1; symmetry; [apply Nat.leb_le in E1; apply Nat.leb_le; lia|apply Nat.leb_gt in E1; apply Nat.leb_gt; lia]. }
          now replace (S k + l)%nat with (k + S l)%nat by lia. }
    rewrite G. replace ((0 <=? i)%nat && (i <? 0 + n)%nat) with true; [reflexivity|]. symmetry. apply andb_true_iff. split; [apply Nat.leb_le|apply Nat.ltb_lt]; lia. }
  assert (forall x, In x (init_events n start stops) -> exists i, x = Shutdown i start) as Only.
  { intros x Hx. unfold init_events in Hx. apply in_flat_map in Hx. destruct Hx as (i & _ & Hx). destruct (0 <=? tag_compare start (stops i)); [|easy]. destruct Hx as [<-|[]]. now exists i. }
  split; cbn [init envs ph lim asleep cur stop q].
  - intros i. split; cbn [cur stop q]; [repeat split; try apply A; auto; lia| |left; lia|intros t []].
    destruct (D i) as (D1 & [D2|D2]); split; auto; [left; lia|right; rewrite D2; reflexivity].
  - intros i Hi. rewrite Sh by exact Hi. destruct (0 <=? tag_compare start (stops i)) eqn:G; [|now left]. right. exists start. split; [reflexivity|]. now apply cmp_ge0.
  - intros i Hi _. rewrite Sh by exact Hi. destruct (0 <=? tag_compare start (stops i)) eqn:G; [now right|]. left. split; [reflexivity|]. now apply cmp_ge0f.
  - exact Logic.I.
  - intros i Hi _ Hin. destruct (Only _ Hin). discriminate.
  - intros i c t _ _ Hin. destruct (Only _ Hin). discriminate.
  - discriminate.
  - exact Logic.I.
Qed.

Lemma step_inv s es o s' es' : inv s es -> allowed top s o -> step n enc ka inside s o = Some (s', es') -> inv s' (es ++ es').
Proof.
  intros Iv Al H. destruct o as [i g|i t|]; cbn [step allowed] in *.
  - (* advance *)
    destruct ((i <? n)%nat && negb (ended (envs s i)) && negb (asleep (envs s i)) && negb (busy inside s i)) eqn:G; [|discriminate].
    rewrite !andb_true_iff, !negb_true_iff in G. destruct G as (((G1 & G2) & G3) & G4). apply Nat.ltb_lt in G1. unfold advance in H.
    destruct ((tag_compare (completed s) (cur (envs s i)) =? 0) && (0 <=? tag_compare (cur (envs s i)) (stop (envs s i)))) eqn:F.
    + injection H as <- <-. apply andb_true_iff in F. destruct F as (_ & F). apply cmp_ge0 in F.
      assert (forall j, shutdowns j (es ++ [Ends i]) = shutdowns j es) as Sh by (intros; rewrite shutdowns_app; cbn; now rewrite app_nil_r).
      set (e' := mkEnv _ _ _ _ true). assert (forall j, cur (upd (envs s) i e' j) = cur (envs s j) /\ stop (upd (envs s) i e' j) = stop (envs s j) /\ q (upd (envs s) i e' j) = q (envs s j) /\ asleep (upd (envs s) i e' j) = asleep (envs s j)) as Same.
      { intros j. destruct (Nat.eq_dec j i) as [->|Ne]; [rewrite upd_same; auto|rewrite upd_other; auto]. }
      split; cbn [envs ph].
      * intros j. destruct (Same j) as (E1 & E2 & E3 & E4). destruct (g_env _ _ Iv j) as [A B C D]. split; rewrite ?E1, ?E2, ?E3; auto.
      * intros j Hj. rewrite Sh. destruct (Same j) as (E1 & E2 & _). rewrite E1, E2. apply (g_once _ _ Iv j Hj).
      * intros j Hj Hp. rewrite Sh. destruct (Same j) as (E1 & E2 & _). rewrite E1, E2. apply (g_prot _ _ Iv j Hj Hp).
      * pose proof (g_max _ _ Iv) as M. destruct (ph s) as [|k m|k m|]; auto; destruct M as (M1 & M2 & M3 & M4); unfold max_ok; cbn [envs]; split; auto; split; auto; split; auto; intros j Hj Hk; destruct (Same j) as (E1 & _); rewrite E1; auto.
      * intros j Hj Hp Hin. rewrite Sh. apply in_app_or in Hin. destruct Hin as [Hin|[Hin|[]]]; [apply (g_ends _ _ Iv j Hj Hp Hin)|]. injection Hin as <-.
        destruct (g_prot _ _ Iv i Hj Hp) as [(K1 & K2)|K]; [|rewrite K; discriminate]. exfalso. apply (tag_lt_irrefl (cur (envs s i))). now apply tag_lt_le_trans with (stop (envs s i)).
      * intros j c t Hj Hi Hin. apply in_app_or in Hin. destruct Hin as [Hin|[Hin|[]]]; [|discriminate]. destruct (g_set _ _ Iv j c t Hj Hi Hin); auto. right. apply in_or_app. now left.
      * destruct (Same 0%nat) as (E1 & E2 & _ & E4). rewrite E2, E4. apply (g_sleep _ _ Iv).
      * pose proof (g_fin _ _ Iv) as M. destruct (Same 0%nat) as (E1 & E2 & _ & E4). destruct (ph s); rewrite ?E2; auto.
    + destruct (next_locked enc ka i g (envs s i)) as [e' ev] eqn:N. cbn [fst snd] in H. injection H as <- <-.
      assert (top <= lim (ph s) /\ lim (ph s) + 1 < two32) as (L1 & L2) by (unfold lim; destruct (ph s); lia).
      destruct (next_locked_spec _ _ _ _ _ _ _ _ _ (g_env _ _ Iv i) L1 L2 N) as (I' & P1 & P2 & P3 & P4).
      assert (forall j, j <> i -> shutdowns j (es ++ ev) = shutdowns j es) as Sh.
      { intros j Hj. rewrite shutdowns_app. destruct P4 as [(-> & _)|[(-> & _)|(-> & _)]]; cbn; rewrite ?app_nil_r; auto. destruct (Nat.eqb_spec i j); [congruence|]. now rewrite app_nil_r. }
      assert (forall x, In x ev -> exists t, x = Shutdown i t) as Only. { intros x Hx. destruct P4 as [(-> & _)|[(-> & _)|(-> & _)]]; try easy. destruct Hx as [<-|[]]. eauto. }
      assert (tag_lt (cur (envs s i)) (stop (envs s i)) -> shutdowns i es = []) as None0.
      { intros L. destruct (g_once _ _ Iv i G1) as [K|(t & K1 & K2)]; [exact K|]. exfalso. apply (tag_lt_irrefl (cur (envs s i))). now apply tag_lt_le_trans with (stop (envs s i)). }
      split; cbn [envs ph].
      * intros j. destruct (Nat.eq_dec j i) as [->|Ne]; [now rewrite upd_same|rewrite upd_other by exact Ne; apply (g_env _ _ Iv)].
      * intros j Hj. destruct (Nat.eq_dec j i) as [->|Ne]; [|rewrite upd_other, Sh by exact Ne; apply (g_once _ _ Iv j Hj)]. rewrite upd_same, shutdowns_app.
        destruct P4 as [(-> & E & _)|[(-> & E & _)|(-> & E & E')]]; cbn [shutdowns flat_map]; rewrite ?app_nil_r.
        -- destruct (g_once _ _ Iv i G1) as [K|(t & K1 & K2)]; [now left|]. right. exists t. split; [exact K1|]. rewrite E. now apply tag_le_trans with (stop (envs s i)).
        -- left. auto.
        -- right. exists (cur e'). rewrite None0 by exact E. cbn. rewrite Nat.eqb_refl. split; [reflexivity|]. rewrite E'. apply tag_le_refl.
      * intros j Hj Hp. destruct (Nat.eq_dec j i) as [->|Ne]; [|rewrite upd_other, Sh by exact Ne; apply (g_prot _ _ Iv j Hj Hp)]. rewrite upd_same, shutdowns_app.
        destruct P4 as [(-> & E & E')|[(-> & E & E')|(-> & E & E')]]; cbn [shutdowns flat_map]; rewrite ?app_nil_r.
        -- destruct (g_prot _ _ Iv i Hj Hp) as [(K1 & K2)|K]; [left; auto|right; now rewrite E].
        -- left. auto.
        -- right. rewrite None0 by exact E. cbn. now rewrite Nat.eqb_refl.
      * pose proof (g_max _ _ Iv) as M. unfold busy in G4.
        destruct (ph s) as [|k m|k m|]; auto; destruct M as (M1 & M2 & M3 & M4); unfold max_ok; cbn [envs]; split; auto; split; auto; split; auto; intros j Hj Hk; rewrite Hj in G4; apply Nat.eqb_neq in G4; rewrite upd_other by congruence; auto.
      * intros j Hj Hp Hin. apply in_app_or in Hin. destruct Hin as [Hin|Hin]; [|destruct (Only _ Hin); discriminate]. pose proof (g_ends _ _ Iv j Hj Hp Hin) as Q. rewrite shutdowns_app. destruct (shutdowns j es); [easy|discriminate].
      * intros j c t Hj Hi Hin. apply in_app_or in Hin. destruct Hin as [Hin|Hin]; [|destruct (Only _ Hin); discriminate]. destruct (g_set _ _ Iv j c t Hj Hi Hin); auto. right. apply in_or_app. now left.
      * destruct (Nat.eq_dec 0 i) as [<-|Ne]; [rewrite upd_same|rewrite upd_other by exact Ne; apply (g_sleep _ _ Iv)]. intros As. destruct (P3 As) as [Q|Q]; [congruence|exact Q].
      * pose proof (g_fin _ _ Iv) as M. destruct (Nat.eq_dec 0 i) as [<-|Ne]; [rewrite upd_same|rewrite upd_other by exact Ne; exact M].
        destruct (ph s); auto; intros Q; specialize (M Q); destruct P1 as [P1|[P1 _]]; lia.
  - (* insert *)
    destruct Al as (A1 & A2 & A3). destruct (i <? n)%nat eqn:G; [|discriminate]. injection H as <- <-. rewrite app_nil_r.
    set (e' := mkEnv _ _ _ _ _). assert (forall j, cur (upd (envs s) i e' j) = cur (envs s j) /\ stop (upd (envs s) i e' j) = stop (envs s j)) as Same.
    { intros j. destruct (Nat.eq_dec j i) as [->|Ne]; [rewrite upd_same; auto|rewrite upd_other; auto]. }
    split; cbn [envs ph].
    + intros j. destruct (Nat.eq_dec j i) as [->|Ne]; [|rewrite upd_other by exact Ne; apply (g_env _ _ Iv)]. rewrite upd_same. destruct (g_env _ _ Iv i) as [A B C D]. split; cbn; auto. intros u [<-|Hu]; auto.
    + intros j Hj. destruct (Same j) as (E1 & E2). rewrite E1, E2. apply (g_once _ _ Iv j Hj).
    + intros j Hj Hp. destruct (Same j) as (E1 & E2). rewrite E1, E2. apply (g_prot _ _ Iv j Hj Hp).
    + pose proof (g_max _ _ Iv) as M. destruct (ph s) as [|k m|k m|]; auto; destruct M as (M1 & M2 & M3 & M4); unfold max_ok; cbn [envs]; split; auto; split; auto; split; auto; intros j Hj Hk; destruct (Same j) as (E1 & _); rewrite E1; auto.
    + apply (g_ends _ _ Iv).
    + apply (g_set _ _ Iv).
    + destruct (Same 0%nat) as (_ & E2). rewrite E2. destruct (Nat.eq_dec 0 i) as [<-|Ne]; [rewrite upd_same; discriminate|rewrite upd_other by exact Ne; apply (g_sleep _ _ Iv)].
    + pose proof (g_fin _ _ Iv) as M. destruct (Same 0%nat) as (_ & E2). destruct (ph s); rewrite ?E2; auto.
  - (* request *)
    unfold request in H. destruct (ph s) as [|k m|k m|] eqn:P; [| | |discriminate].
    + injection H as <- <-. rewrite app_nil_r. destruct Iv as [G1 G2 G3 G4 G5 G6 G7 G8]. rewrite P in *.
      assert (forall i, prot s i) as Pr by (intros; now right).
      split; cbn [envs ph lim] in *; auto.
      split; [now vm_compute; repeat split; discriminate|]. split; [now vm_compute|]. split; [exact Htop0|]. intros j _ Hj. lia.
    + destruct (k <? n)%nat eqn:L.
      * injection H as <- <-. rewrite app_nil_r. destruct Iv as [G1 G2 G3 G4 G5 G6 G7 G8]. rewrite P in *.
        set (m' := if 0 <? tag_compare (cur (envs s k)) m then cur (envs s k) else m).
        assert (forall i, prot (mkState (envs s) (completed s) (Collecting (S k) m')) i -> prot s i) as Pr by (intros i [Q|Q]; [now left|discriminate]).
        split; cbn [envs ph lim] in *; auto. destruct G4 as (M1 & M2 & M3 & M4). destruct (e_cur _ _ _ (G1 k)) as (C1 & C2 & C3).
        assert (tag_le m m' /\ tag_le (cur (envs s k)) m') as (Q1 & Q2).
        { unfold m'. destruct (0 <? tag_compare (cur (envs s k)) m) eqn:C; [apply cmp_gt0 in C; split; [now apply tag_lt_le|apply tag_le_refl]|apply cmp_gt0f in C; split; [apply tag_le_refl|exact C]]. }
        split; [unfold m'; destruct (0 <? _); auto|]. split; [unfold m'; destruct (0 <? _); auto|]. split; [unfold m'; destruct (0 <? _); auto|].
        intros j Hj Hk. cbn [envs]. destruct (Nat.eq_dec j k) as [->|Ne]; [exact Q2|]. eapply tag_le_trans; [|exact Q1]. apply M4; [exact Hj|lia].
      * injection H as <- <-. rewrite app_nil_r. apply Nat.ltb_ge in L. destruct Iv as [G1 G2 G3 G4 G5 G6 G7 G8]. rewrite P in *.
        assert (forall i, prot (mkState (envs s) (completed s) (Setting 0 m)) i -> prot s i) as Pr by (intros i [Q|Q]; [now left|discriminate]).
        split; cbn [envs ph lim] in *; auto.
        -- intros i. apply (einv_mono top); [lia|apply G1].
        -- destruct G4 as (M1 & M2 & M3 & M4). split; auto. split; auto. split; auto. intros j Hj Hn. apply M4; [exact Hj|lia].
        -- lia.
    + destruct (k <? n)%nat eqn:L.
      * apply Nat.ltb_lt in L. pose proof (g_max _ _ Iv) as M. rewrite P in M. destruct M as (M1 & M2 & M3 & M4).
        destruct (bump_lt m M1 ltac:(lia)) as (B1 & B2 & B3).
        set (e1 := set_stop (envs s k) (bump m)) in *. set (f := upd (envs s) k e1) in *. set (e0 := mkEnv (cur (f O)) (stop (f O)) (q (f O)) false (ended (f O))) in *.
        injection H as <- <-.
        assert (forall j, cur (upd f 0 e0 j) = cur (envs s j) /\ q (upd f 0 e0 j) = q (envs s j) /\ stop (upd f 0 e0 j) = stop (f j)) as Same.
        { intros j. assert (cur (f j) = cur (envs s j) /\ q (f j) = q (envs s j)) as (Q1 & Q2). { unfold f. destruct (Nat.eq_dec j k) as [->|Ne]; [rewrite upd_same; auto|rewrite upd_other; auto]. }
          destruct (Nat.eq_dec j 0) as [->|Ne]; [rewrite upd_same|rewrite upd_other by exact Ne]; auto. }
        assert (forall j, tag_le (stop (f j)) (stop (envs s j))) as Low.
        { intros j. unfold f. destruct (Nat.eq_dec j k) as [->|Ne]; [rewrite upd_same|rewrite upd_other by exact Ne; apply tag_le_refl]. unfold e1. destruct (set_stop_spec (envs s k) (bump m)) as [(-> & E)|(-> & E)]; [now apply tag_lt_le|apply tag_le_refl]. }
        assert (forall j, inside = Some j -> (j < n)%nat -> tag_lt (cur (envs s j)) (stop (envs s j)) -> tag_lt (cur (envs s j)) (stop (f j))) as Keep.
        { intros j Hj Hn Q. unfold f. destruct (Nat.eq_dec j k) as [->|Ne]; [rewrite upd_same|rewrite upd_other by exact Ne; exact Q]. unfold e1. destruct (set_stop_spec (envs s k) (bump m)) as [(-> & E)|(-> & E)]; [|exact Q].
          eapply tag_le_lt_trans; [apply (M4 k Hj Hn)|exact B2]. }
        assert (forall j, shutdowns j (es ++ [StopSet k (cur e1) (stop e1)]) = shutdowns j es) as Sh by (intros; rewrite shutdowns_app; cbn; now rewrite app_nil_r).
        assert (forall i, prot (mkState (upd f 0 e0) (completed s) (Setting (S k) m)) i -> inside = Some i) as Pr by (intros i [Q|Q]; [exact Q|discriminate]).
        split; cbn [envs ph lim].
        -- intros j. destruct (Same j) as (E1 & E2 & E3). assert (einv (top + 1) top (f j)) as [A B C D].
           { pose proof (g_env _ _ Iv) as G. rewrite P in G. cbn [lim] in G. unfold f. destruct (Nat.eq_dec j k) as [->|Ne]; [rewrite upd_same|rewrite upd_other by exact Ne; apply G]. unfold e1. apply einv_set_stop; auto; [lia|]. intros _. apply (e_low _ _ _ (G k)). }
           assert (cur (f j) = cur (envs s j) /\ q (f j) = q (envs s j)) as (Q1 & Q2). { unfold f. destruct (Nat.eq_dec j k) as [->|Ne]; [rewrite upd_same; auto|rewrite upd_other; auto]. }
           rewrite <- Q1 in E1. rewrite <- Q2 in E2. split; rewrite ?E1, ?E2, ?E3; auto.
        -- intros j Hj. rewrite Sh. destruct (Same j) as (E1 & E2 & E3). rewrite E1, E3. destruct (g_once _ _ Iv j Hj) as [K|(t & K1 & K2)]; [now left|right; exists t; split; [exact K1|]]. now apply tag_le_trans with (stop (envs s j)).
        -- intros j Hj Hp. rewrite Sh. apply Pr in Hp. destruct (Same j) as (E1 & E2 & E3). rewrite E1, E3. destruct (g_prot _ _ Iv j Hj (or_introl Hp)) as [(K1 & K2)|K]; [left; auto|now right].
        -- split; auto. split; auto. split; auto. intros j Hj Hn. cbn [envs]. destruct (Same j) as (E1 & _). rewrite E1. auto.
        -- intros j Hj Hp Hin. rewrite Sh. apply Pr in Hp. apply in_app_or in Hin. destruct Hin as [Hin|[Hin|[]]]; [|discriminate]. apply (g_ends _ _ Iv j Hj (or_introl Hp) Hin).
        -- intros j c t Hj Hi Hin. apply in_app_or in Hin. destruct Hin as [Hin|[Hin|[]]].
           ++ destruct (g_set _ _ Iv j c t Hj Hi Hin); auto. right. apply in_or_app. now left.
           ++ injection Hin as -> <- <-. assert (cur e1 = cur (envs s j)) as Ec by reflexivity. assert (stop (f j) = stop e1) as Ef by (unfold f; now rewrite upd_same).
              destruct (g_prot _ _ Iv j Hj (or_introl Hi)) as [(K1 & K2)|K].
              ** left. change (tag_lt (cur (envs s j)) (stop e1)). rewrite <- Ef. now apply Keep.
              ** right. apply in_or_app. left. apply shutdowns_in. rewrite K. now left.
        -- rewrite upd_same. discriminate.
        -- intros _. destruct (Same 0%nat) as (_ & _ & E3). rewrite E3. pose proof (g_fin _ _ Iv) as Fi. rewrite P in Fi. destruct k as [|k].
           ++ unfold f. rewrite upd_same. unfold e1. destruct (set_stop_spec (envs s 0) (bump m)) as [(-> & E)|(-> & E)]; [exact M2|]. assert (ttime (bump m) = ttime m) by reflexivity. destruct E as [E|[E _]]; lia.
           ++ pose proof (Low 0%nat) as Q. specialize (Fi ltac:(lia)). destruct Q as [Q|[Q _]]; lia.
      * injection H as <- <-. rewrite app_nil_r. apply Nat.ltb_ge in L. destruct Iv as [G1 G2 G3 G4 G5 G6 G7 G8]. rewrite P in *.
        assert (forall i, prot (mkState (envs s) (completed s) Requested) i -> prot s i) as Pr by (intros i [Q|Q]; [now left|discriminate]).
        split; cbn [envs ph lim] in *; auto. intros Q. apply G8. lia.
Qed.

Lemma exec_inv start stops s es : start_ok top start stops -> exec n enc ka inside top (init start stops) (init_events n start stops) s es -> inv s es.
Proof. intros O X. induction X; [now apply init_inv|]. eapply step_inv; eassumption. Qed.
End Inv.
