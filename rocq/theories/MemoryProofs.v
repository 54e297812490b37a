(** Proofs about the memory of a program: triples over the live blocks. *)
From Verif Require Import Base Memory MemorySpec.
From Coq Require Import Permutation.
Local Open Scope nat_scope.

(** ** Triples: [m] needs the blocks [P] and turns them into blocks [L] with [Q a L];
    all other blocks stay. *)
Definition triple {A} (P : list block) (m : M A) (Q : A -> list block -> Prop) : Prop :=
  forall h F, wf h -> Permutation (live h) (P ++ F) ->
  exists a h' L, m h = Ok (a, h') /\ wf h' /\ Q a L /\ Permutation (live h') (L ++ F).
(** Without a result that matters. *)
Definition cleans {A} (P : list block) (m : M A) (P' : list block) : Prop := triple P m (fun _ L => L = P').

Lemma t_conseq {A} P P' (m : M A) (Q Q' : A -> list block -> Prop) : triple P m Q -> Permutation P' P ->
  (forall a L, Q a L -> exists L', Permutation L L' /\ Q' a L') -> triple P' m Q'.
Proof.
  intros T PP QQ h F W L. destruct (T h F W) as (a & h' & L' & E & W' & HQ & PL).
  { rewrite L. apply Permutation_app_tail. assumption. }
  destruct (QQ a L' HQ) as (L2 & P2 & Q2). exists a, h', L2. repeat split; try assumption; try apply W'.
  rewrite PL. apply Permutation_app_tail. assumption.
Qed.
Lemma t_frame {A} P (m : M A) Q R : triple P m Q -> triple (P ++ R) m (fun a L => exists L0, L = L0 ++ R /\ Q a L0).
Proof.
  intros T h F W L. destruct (T h (R ++ F) W) as (a & h' & L' & E & W' & HQ & PL).
  { rewrite L, app_assoc. reflexivity. }
  exists a, h', (L' ++ R). repeat split; try assumption; try apply W'. { exists L'. auto. }
  rewrite PL, app_assoc. reflexivity.
Qed.
Lemma t_ret {A} P (a : A) (Q : A -> list block -> Prop) : Q a P -> triple P (ret a) Q.
Proof. intros H h F W L. exists a, h, P. repeat split; try assumption; apply W. Qed.
Lemma t_bind {A B} P (m : M A) Q (f : A -> M B) R : triple P m Q -> (forall a L, Q a L -> triple L (f a) R) ->
  triple P (bindM m f) R.
Proof.
  intros T TF h F W L. destruct (T h F W L) as (a & h' & L' & E & W' & HQ & PL).
  destruct (TF a L' HQ h' F W' PL) as (b & h2 & L2 & E2 & W2 & HR & PL2).
  exists b, h2, L2. unfold bindM. rewrite E. auto.
Qed.
(** The first command works on the front part of the blocks. *)
Lemma t_seq {A B} X Y P' (m : M A) (f : A -> M B) R : cleans X m Y -> (forall a, triple (Y ++ P') (f a) R) ->
  triple (X ++ P') (bindM m f) R.
Proof.
  intros T TF. eapply t_bind; [apply t_frame; exact T|]. intros a L (L0 & -> & ->). apply TF.
Qed.
Lemma t_perm {A} P P' (m : M A) Q : Permutation P' P -> triple P m Q -> triple P' m Q.
Proof. intros PP T. eapply t_conseq; [exact T|exact PP|]. intros a L HQ. exists L. split; [reflexivity|assumption]. Qed.

Lemma t_alloc k : triple [] (alloc k) (fun p L => L = [(p, k)]).
Proof.
  intros h F [N B] L. exists (next h), (mkHeap (S (next h)) ((next h, k) :: live h)), [(next h, k)].
  split; [reflexivity|]. split; [|split; [reflexivity|]].
  - split; cbn [live next map fst].
    + constructor; [|assumption]. rewrite in_map_iff. intros (b & E & I). rewrite Forall_forall in B. specialize (B b I). lia.
    + constructor; [cbn; lia|]. eapply Forall_impl; [|exact B]. cbn. intros; lia.
  - cbn [live app]. constructor. exact L.
Qed.
Lemma remove_block_In p k l : NoDup (map fst l) -> In (p, k) l -> exists l', remove_block p l = Some l' /\ Permutation l ((p, k) :: l').
Proof.
  induction l as [|b l IH]; intros N I; [destruct I|]. cbn [map] in N. inversion N as [|? ? N1 N2]; subst.
  cbn [remove_block]. destruct (Nat.eqb_spec (fst b) p) as [e|ne].
  - destruct I as [->|I]; [exists l; split; reflexivity|]. exfalso. apply N1. rewrite e. change p with (fst (p, k)). apply in_map. assumption.
  - destruct I as [->|I]; [cbn in ne; congruence|]. destruct (IH N2 I) as (l' & -> & PP).
    exists (b :: l'). split; [reflexivity|]. rewrite PP. apply perm_swap.
Qed.
Lemma wf_perm n l l' : Permutation l l' -> wf (mkHeap n l) -> wf (mkHeap n l').
Proof.
  intros PP [N B]. cbn [live next] in *. split; cbn [live next].
  - eapply Permutation_NoDup; [apply Permutation_map; exact PP|assumption].
  - rewrite <- PP. assumption.
Qed.
Lemma t_free p k : cleans [(p, k)] (free p) [].
Proof.
  intros h F W L. pose proof W as [N B]. assert (I : In (p, k) (live h)) by (rewrite L; left; reflexivity).
  destruct (remove_block_In p k _ N I) as (l' & E & PP).
  exists tt, (mkHeap (next h) l'), []. unfold free. rewrite E. split; [reflexivity|]. split; [|split; [reflexivity|]].
  - destruct h as [n l]. cbn [live next] in *. destruct (wf_perm n l ((p, k) :: l') PP W) as [N' B']. cbn [live next map] in *.
    split; cbn [live next]; [inversion N'; assumption|inversion B'; assumption].
  - cbn [live app] in *. rewrite PP in L. apply Permutation_cons_inv in L. assumption.
Qed.
Lemma t_touch p k : cleans [(p, k)] (touch p) [(p, k)].
Proof.
  intros h F W L. exists tt, h, [(p, k)]. unfold touch.
  assert (existsb (fun b => fst b =? p) (live h) = true) as ->.
  { apply existsb_exists. exists (p, k). split; [rewrite L; left; reflexivity|apply Nat.eqb_refl]. }
  repeat split; try assumption; apply W.
Qed.
Definition opt (o : option nat) (k : kind) : list block := match o with Some p => [(p, k)] | None => [] end.
Lemma t_free_opt o k : cleans (opt o k) (free_opt o) [].
Proof. destruct o; [apply t_free|apply t_ret; reflexivity]. Qed.
Lemma t_alloc_if b k : triple [] (alloc_if b k) (fun o L => L = opt o k /\ (if b then o <> None else o = None)).
Proof.
  unfold alloc_if. destruct b.
  - eapply t_bind; [apply t_alloc|]. intros p L ->. apply t_ret. split; [reflexivity|discriminate].
  - apply t_ret. split; reflexivity.
Qed.
(** A block somewhere in the list is read. *)
Lemma t_touch_in {B} p k P (f : unit -> M B) R : In (p, k) P -> triple P (f tt) R -> triple P (bindM (touch p) f) R.
Proof.
  intros I T. apply in_split in I. destruct I as (l1 & l2 & ->).
  apply (t_perm ([(p, k)] ++ (l1 ++ l2))); [cbn [app]; symmetry; apply Permutation_middle|].
  eapply t_seq; [apply t_touch|]. intros []. eapply t_perm; [|exact T]. cbn [app]. apply Permutation_middle.
Qed.

(** Allocation in front of the blocks there are. *)
Lemma t_new {A B} P (m : M A) (Q : A -> list block -> Prop) (f : A -> M B) R : triple [] m Q ->
  (forall a L, Q a L -> triple (L ++ P) (f a) R) -> triple P (bindM m f) R.
Proof. intros T TF. pose proof (t_frame [] m Q P T) as TT. cbn [app] in TT. eapply t_bind; [exact TT|]. intros a L (L0 & -> & HQ). apply TF. assumption. Qed.

Lemma t_each_ {A} (f : A -> M unit) (X : A -> list block) (l : list A) :
  Forall (fun a => cleans (X a) (f a) []) l -> cleans (flat_map X l) (each_ f l) [].
Proof.
  induction 1 as [|a l C _ IH]; [apply t_ret; reflexivity|].
  cbn [flat_map each_]. eapply t_seq; [exact C|]. intros _. exact IH.
Qed.
(** With blocks that are only read. *)
Lemma t_each_keep {A} (f : A -> M unit) (X Y : A -> list block) (l : list A) :
  Forall (fun a => cleans (X a) (f a) (Y a)) l -> cleans (flat_map X l) (each_ f l) (flat_map Y l).
Proof.
  induction 1 as [|a l C _ IH]; [apply t_ret; reflexivity|].
  cbn [flat_map each_]. eapply t_seq; [exact C|]. intros _.
  eapply t_conseq; [apply t_frame with (R := (Y a)); exact IH|apply Permutation_app_comm|].
  intros u L (L0 & -> & ->). exists (Y a ++ flat_map Y l). split; [apply Permutation_app_comm|reflexivity].
Qed.
Lemma t_each {A B} (f : A -> M B) (Y : B -> list block) (phi : A -> B -> Prop) (l : list A) :
  Forall (fun a => triple [] (f a) (fun b L => Permutation L (Y b) /\ phi a b)) l ->
  triple [] (each f l) (fun bs L => Permutation L (flat_map Y bs) /\ Forall2 phi l bs).
Proof.
  induction 1 as [|a l C _ IH]; [apply t_ret; split; [reflexivity|constructor]|]. cbn [each].
  eapply t_bind; [exact C|]. intros b L [PL HP].
  eapply t_new; [exact IH|]. intros bs L' [PL' F].
  eapply t_perm; [apply Permutation_app_comm|]. apply t_ret. split; [cbn [flat_map]; rewrite PL, PL'; reflexivity|constructor; assumption].
Qed.
Lemma t_each_const {A} k (l : list A) : triple [] (each (fun _ => alloc k) l) (fun ps L => L = map (fun p => (p, k)) ps /\ List.length ps = List.length l).
Proof.
  induction l as [|a l IH]; [apply t_ret; split; reflexivity|]. cbn [each].
  eapply t_bind; [apply t_alloc|]. intros p L ->.
  eapply t_new; [exact IH|]. intros ps L [-> E].
  eapply t_perm; [apply Permutation_app_comm|]. apply t_ret. split; [reflexivity|cbn; lia].
Qed.
Lemma t_free_all k ps : cleans (map (fun p => (p, k)) ps) (each_ free ps) [].
Proof.
  induction ps as [|p ps IH]; [apply t_ret; reflexivity|]. cbn [map each_].
  change ((p, k) :: map (fun p => (p, k)) ps) with ([(p, k)] ++ map (fun p => (p, k)) ps).
  eapply t_seq; [apply t_free|]. intros _. exact IH.
Qed.

(** ** Permutations by counting. *)
Definition block_eq_dec (a b : block) : {a = b} + {a <> b}.
Proof. decide equality; [apply kind_eq_dec|apply Nat.eq_dec]. Defined.
Lemma perm_cnt l1 l2 : (forall b, count_occ block_eq_dec l1 b = count_occ block_eq_dec l2 b) -> Permutation l1 l2.
Proof. apply (Permutation_count_occ block_eq_dec). Qed.
Lemma cnt_perm l1 l2 : Permutation l1 l2 -> forall b, count_occ block_eq_dec l1 b = count_occ block_eq_dec l2 b.
Proof. apply (Permutation_count_occ block_eq_dec). Qed.
Lemma cnt_cons x y l b : count_occ block_eq_dec (x :: y :: l) b = count_occ block_eq_dec [x] b + count_occ block_eq_dec (y :: l) b.
Proof. apply (count_occ_app block_eq_dec [x]). Qed.
Lemma cnt1 (x : nat * kind) (l : list (nat * kind)) (b : nat * kind) :
  @count_occ (nat * kind) block_eq_dec (x :: l) b = @count_occ (nat * kind) block_eq_dec [x] b + @count_occ (nat * kind) block_eq_dec l b.
Proof. apply (count_occ_app block_eq_dec [x]). Qed.
Ltac cnts := repeat match goal with
  | |- context [@count_occ _ _ (@cons _ ?x ?l) ?b] => lazymatch l with @nil _ => fail | _ => rewrite (cnt1 x l b) end
  | X : context [@count_occ _ _ (@cons _ ?x ?l) ?b] |- _ => lazymatch l with @nil _ => fail | _ => rewrite (cnt1 x l b) in X end
  end.
Ltac perm := cbv beta in *; apply perm_cnt; let b := fresh "b" in intros b;
  repeat match goal with X : Permutation _ _ |- _ => let Y := fresh in pose proof (cnt_perm _ _ X b) as Y; clear X end;
  unfold block in *; repeat (progress (repeat rewrite ?count_occ_app, ?cnt_cons in *; unfold block in *; cnts)); cbn [count_occ] in *; unfold block in *; lia.

Lemma t_last {A} X P' (m : M A) : cleans X m [] -> cleans (X ++ P') m P'.
Proof. intros T. eapply t_conseq; [apply t_frame; exact T|reflexivity|]. intros a L (L0 & -> & ->). exists P'. split; reflexivity. Qed.
Lemma t_seq0 {A B} X P' (m : M A) (f : A -> M B) R : cleans X m [] -> (forall a, triple P' (f a) R) -> triple (X ++ P') (bindM m f) R.
Proof. intros T TF. eapply t_seq; [exact T|]. intros a. apply TF. Qed.
Lemma t_seq_keep {A B} X K P' (m : M A) (f : A -> M B) R : cleans (X ++ K) m K -> (exists P2, Permutation P' (K ++ P2)) ->
  (forall a, triple P' (f a) R) -> triple (X ++ P') (bindM m f) R.
Proof.
  intros T (P2 & PP) TF. apply (t_perm ((X ++ K) ++ P2)); [rewrite PP, app_assoc; reflexivity|].
  eapply t_seq; [exact T|]. intros a. eapply t_perm; [symmetry; exact PP|apply TF].
Qed.
Ltac here := repeat rewrite in_app_iff; cbn [In]; tauto.
Ltac touch_ k := eapply (t_touch_in _ k); [here|].

(** ** Reactors. *)
Definition rec_blocks (r : nat * nat) : list block := [(snd r, KOwned)] ++ [(fst r, KRecord)].
Lemma t_lf_free head : cleans (flat_map rec_blocks head) (lf_free head) [].
Proof.
  apply t_each_. apply Forall_forall. intros r _. unfold rec_blocks. touch_ KRecord.
  apply t_seq0; [apply t_free|]. intros _. touch_ KRecord. apply t_free.
Qed.
Definition base_blocks (r : reactor) : list block :=
  flat_map rec_blocks (r_allocations r) ++ [(r_self r, KReactor)] ++ [(r_record r, KRecord)].
Definition mutex_block (r : reactor) : list block := opt (r_mutex r) KMutex.
Definition other_mutex_block (r : reactor) : list block := if r_first r then [] else mutex_block r.
Lemma t_reactors (K : reactor -> list block) l :
  cleans (flat_map (fun r => base_blocks r ++ K r) l) (lf_free_all_reactors l) (flat_map K l).
Proof.
  unfold lf_free_all_reactors. apply t_each_keep. apply Forall_forall. intros r _. apply t_last. unfold base_blocks.
  touch_ KRecord.
  assert (X : cleans (flat_map rec_blocks (r_allocations r) ++ [(r_self r, KReactor)]) (lf_free_reactor r) []).
  { unfold lf_free_reactor. touch_ KReactor. apply t_seq0; [apply t_lf_free|]. intros _. touch_ KReactor. apply t_free. }
  rewrite app_assoc. apply t_seq0; [exact X|]. intros _. touch_ KRecord. apply t_free.
Qed.
Definition reactor_blocks (r : reactor) : list block := base_blocks r ++ mutex_block r.
Definition rinv (r : reactor) : Prop := (r_mutex r = None <-> r_watchdogs r = 0) /\ r_watchdogs r <= 1.
Lemma each_app {A} (f : A -> M unit) l1 l2 h : each_ f (l1 ++ l2) h = bindM (each_ f l1) (fun _ => each_ f l2) h.
Proof.
  revert h. induction l1 as [|a l1 IH]; intros h; [reflexivity|]. cbn [app each_]. unfold bindM in *.
  destruct (f a h) as [[u h']|]; [|reflexivity]. apply IH.
Qed.
Lemma t_ext {A} P (m m' : M A) Q : (forall h, m h = m' h) -> triple P m' Q -> triple P m Q.
Proof. intros E T h F W L. rewrite E. apply T; assumption. Qed.
Lemma t_mutexes l : Forall rinv l ->
  cleans (flat_map reactor_blocks l) (each_ (fun r => touch (r_self r);; free_opt (r_mutex r)) (watchdog_bases l))
    (flat_map (fun r => base_blocks r ++ other_mutex_block r) l).
Proof.
  induction 1 as [|r l V _ IH]; [apply t_ret; reflexivity|]. destruct V as [V1 V2].
  change (watchdog_bases (r :: l)) with (repeat r (if r_first r then r_watchdogs r else 0) ++ watchdog_bases l).
  cbn [flat_map]. eapply t_ext; [intros; apply each_app|].
  eapply t_seq with (Y := base_blocks r ++ other_mutex_block r).
  - unfold reactor_blocks, other_mutex_block. destruct (r_first r).
    + destruct (r_watchdogs r) as [|[|n]] eqn:E; [| |lia].
      * cbn [repeat each_]. apply t_ret. unfold mutex_block. rewrite (proj2 V1 eq_refl). reflexivity.
      * cbn [repeat each_]. eapply t_bind with (Q := fun _ L => L = base_blocks r).
        -- unfold base_blocks. rewrite <- !app_assoc.
           apply (t_touch_in _ KReactor); [here|].
           apply (t_perm (mutex_block r ++ base_blocks r)); [unfold base_blocks; perm|]. apply t_last. apply t_free_opt.
        -- intros a L ->. apply t_ret. rewrite app_nil_r. reflexivity.
    + cbn [repeat each_]. apply t_ret. reflexivity.
  - intros _. apply (t_perm (flat_map reactor_blocks l ++ (base_blocks r ++ other_mutex_block r))); [apply Permutation_app_comm|].
    eapply t_conseq; [apply t_frame; exact IH|reflexivity|]. intros a L (L0 & -> & ->).
    eexists. split; [apply Permutation_app_comm|reflexivity].
Qed.

(** ** Queues. *)
Definition queue_blocks (q : queue) : list block := [(q_array q, KQueueArray)] ++ [(q_struct q, KQueue)].
Lemma t_pqueue_init : triple [] pqueue_init (fun q L => Permutation L (queue_blocks q)).
Proof.
  unfold pqueue_init. eapply t_new; [apply t_alloc|]. intros p L ->. eapply t_new; [apply t_alloc|]. intros d L ->.
  apply t_ret. unfold queue_blocks. cbn [q_struct q_array app]. reflexivity.
Qed.
Lemma t_pqueue_free q : cleans (queue_blocks q) (pqueue_free q) [].
Proof. unfold queue_blocks, pqueue_free. touch_ KQueue. apply t_seq0; [apply t_free|]. intros _. apply t_free. Qed.
Lemma t_pqueue_tag_free q : cleans (queue_blocks q) (pqueue_tag_free q []) [].
Proof.
  unfold pqueue_tag_free. unfold queue_blocks. touch_ KQueue. cbn [each_].
  eapply t_bind; [apply (t_ret _ tt (fun _ L => L = queue_blocks q)); reflexivity|]. intros a L ->. apply t_pqueue_free.
Qed.

(** ** Schedulers. *)
Definition level_blocks (l : level_data) : list block :=
  map (fun p => (p, KWorkerReactions)) (l_reactions l) ++ [(l_workers l, KLevelWorkers)] ++ [(l_nums l, KLevelNums)].
Definition sched_freed (s : sched) : list block :=
  match s with
  | SNp _ None => []
  | SNp _ (Some (c, d)) =>
    map (fun p => (p, KLevel)) (np_levels d) ++ [(np_triggered d, KTriggered)] ++ [(np_mutexes d, KLevelMutexes)] ++
    [(np_semaphore d, KSemaphore)] ++ [(c, KCustom)]
  | SGedf _ c q => queue_blocks q ++ [(c, KCustom)]
  | SAdaptive _ c a =>
    [(a_conds a, KConds)] ++ [(a_held a, KHeld)] ++ flat_map level_blocks (a_levels a) ++
    [(a_maxworkers a, KMaxWorkers)] ++ [(a_numworkers a, KNumWorkers)] ++ [(a_start a, KStart)] ++
    map (fun p => (p, KLevelTimes)) (a_leveltimes a) ++ [(a_times a, KTimes)] ++ [(a_possible a, KPossible)] ++ [(c, KCustom)]
  end.
Definition sched_kept (s : sched) : list block :=
  match s with
  | SNp i None => [(i, KSched)]
  | SNp i (Some (_, d)) => [(i, KSched); (np_indexes d, KIndexes)]
  | SGedf i _ _ => [(i, KSched)]
  | SAdaptive i _ a =>
    [(i, KSched); (a_states a, KWorkerStates); (a_assign a, KAssignments); (a_data a, KData); (a_cumsum a, KCumsum);
     (a_bylevel a, KByLevel); (a_numbylevel a, KNumByLevel); (a_mins a, KMins); (a_argmins a, KArgmins)]
  end.
Definition sched_shape (k : scheduler) (s : sched) : Prop :=
  match k, s with
  | NP _, SNp _ (Some _) => True
  | GEDF, SGedf _ _ _ => True
  | Adaptive _, SAdaptive _ _ _ => True
  | _, _ => False
  end.
Lemma t_sched_free k s : sched_shape k s -> cleans (sched_freed s ++ sched_kept s) (sched_free s) (sched_kept s).
Proof.
  destruct s as [i [[c d]|]|i c q|i c a]; intros H.
  - cbn [sched_freed sched_kept sched_free]. rewrite <- !app_assoc.
    touch_ KSched. touch_ KCustom. touch_ KTriggered.
    apply t_seq0; [apply t_free_all|]. intros _. apply t_seq0; [apply t_free|]. intros _. apply t_seq0; [apply t_free|]. intros _.
    apply t_seq0; [apply t_free|]. intros _. apply t_last. apply t_free.
  - destruct k; contradiction.
  - cbn [sched_freed sched_kept sched_free]. rewrite <- !app_assoc. touch_ KSched. touch_ KCustom.
    apply t_seq0; [apply t_pqueue_free|]. intros _. apply t_last. apply t_free.
  - cbn [sched_freed sched_kept sched_free]. rewrite <- !app_assoc.
    touch_ KSched. touch_ KCustom. touch_ KWorkerStates.
    apply t_seq0; [apply t_free|]. intros _. apply t_seq0; [apply t_free|]. intros _.
    touch_ KAssignments. touch_ KByLevel. touch_ KNumByLevel. touch_ KMaxWorkers.
    apply t_seq0.
    { apply t_each_. apply Forall_forall. intros l _. unfold level_blocks. apply t_seq0; [apply t_free_all|]. intros _.
      apply t_seq0; [apply t_free|]. intros _. apply t_free. }
    intros _. apply t_seq0; [apply t_free|]. intros _. apply t_seq0; [apply t_free|]. intros _.
    touch_ KData. apply t_seq0; [apply t_free|]. intros _. touch_ KTimes.
    apply t_seq0; [apply t_free_all|]. intros _. apply t_seq0; [apply t_free|]. intros _. apply t_seq0; [apply t_free|]. intros _.
    apply t_last. apply t_free.
Qed.
Lemma t_sched_init k w : match k with NP (Some (_ :: _)) => True | GEDF => True | Adaptive (Some (_ :: _)) => 0 < w | _ => False end ->
  triple [] (sched_init k w) (fun s L => Permutation L (sched_freed s ++ sched_kept s) /\ sched_shape k s).
Proof.
  intros H. unfold sched_init. eapply t_new; [apply t_alloc|]. intros i L ->.
  destruct k as [[[|n levels]|]| |[[|n levels]|]]; try contradiction.
  - do 5 (eapply t_new; [apply t_alloc|]; intros ? ? ->). eapply t_new; [apply t_each_const|]. intros vs L [-> _].
    apply t_ret. split; [|exact Logic.I]. cbn [sched_freed sched_kept np_levels np_triggered np_mutexes np_semaphore np_indexes]. perm.
  - eapply t_new; [apply t_alloc|]; intros ? ? ->. eapply t_new; [apply t_pqueue_init|]. intros q L PL.
    apply t_ret. split; [|exact Logic.I]. cbn [sched_freed sched_kept]. perm.
  - destruct (Nat.eqb_spec w 0) as [e|_]; [lia|].
    do 11 (eapply t_new; [apply t_alloc|]; intros ? ? ->).
    eapply t_new.
    { apply t_each with (Y := level_blocks) (phi := fun _ _ => True). apply Forall_forall. intros x _.
      eapply t_new; [apply t_alloc|]; intros lw ? ->. eapply t_new; [apply t_alloc|]; intros ln ? ->.
      eapply t_new; [apply t_each_const|]. intros rs L [-> _].
      apply t_ret. split; [|exact Logic.I]. unfold level_blocks. cbn [l_reactions l_workers l_nums]. perm. }
    intros ls L [PL _]. do 4 (eapply t_new; [apply t_alloc|]; intros ? ? ->).
    eapply t_new; [apply t_each_const|]. intros lt L' [-> _]. eapply t_new; [apply t_alloc|]; intros ? ? ->.
    apply t_ret. split; [|exact Logic.I].
    cbn [sched_freed sched_kept a_states a_assign a_data a_conds a_cumsum a_held a_bylevel a_numbylevel a_numworkers a_maxworkers a_levels a_start a_times a_mins a_argmins a_leveltimes a_possible]. perm.
Qed.

(** ** Environments. *)
Definition env_kept (e : environment) : list block :=
  opt (e_watchdogs e) KWatchdogs ++ match e_sched e with Some s => sched_kept s | None => [] end ++
  map (fun p => (p, KEvent)) (e_events e) ++ map (fun p => (p, KEvent)) (e_recycled e).
Definition modes_blocks (m : option modes) : list block :=
  match m with Some m => [(m_states m, KModeStates)] ++ opt (m_resets m) KResets ++ [(m_struct m, KModes)] | None => [] end.
Definition env_freed (e : environment) : list block :=
  opt (e_name e) KName ++ opt (e_timers e) KTimers ++ opt (e_startup e) KStartup ++ opt (e_shutdown e) KShutdown ++
  opt (e_reset e) KReset ++ opt (e_present e) KPresent ++ opt (e_abbreviated e) KAbbreviated ++
  queue_blocks (e_event_q e) ++ queue_blocks (e_recycle_q e) ++ opt (e_threads e) KThreads ++
  match e_sched e with Some s => sched_freed s | None => [] end ++
  match e_reaction_q e with Some q => queue_blocks q | None => [] end ++
  modes_blocks (e_modes e) ++ opt (e_intended e) KIntended.
Definition env_shape (c : config) (e : environment) : Prop :=
  (if 0 <? c_watchdogs c then e_watchdogs e <> None else e_watchdogs e = None) /\
  match c_threaded c, e_sched e with
  | Some (k, _), Some s => sched_shape k s
  | None, None => True
  | _, _ => False
  end.
Lemma t_environment_free c e : env_shape c e -> cleans (env_freed e ++ env_kept e) (environment_free e) (env_kept e).
Proof.
  intros [_ S]. unfold env_freed, environment_free. rewrite <- !app_assoc.
  do 7 (apply t_seq0; [apply t_free_opt|]; intros _).
  do 2 (apply t_seq0; [apply t_pqueue_tag_free|]; intros _).
  apply t_seq0; [apply t_free_opt|]; intros _.
  apply t_seq_keep with (K := match e_sched e with Some s => sched_kept s | None => [] end).
  { destruct (e_sched e) as [s|]; [|apply t_ret; reflexivity]. destruct (c_threaded c) as [[k w]|]; [|contradiction].
    apply (t_sched_free k). assumption. }
  { exists (match e_reaction_q e with Some q => queue_blocks q | None => [] end ++ modes_blocks (e_modes e) ++ opt (e_intended e) KIntended ++
      opt (e_watchdogs e) KWatchdogs ++ map (fun p => (p, KEvent)) (e_events e) ++ map (fun p => (p, KEvent)) (e_recycled e)). unfold env_kept. perm. }
  intros _. apply t_seq0; [destruct (e_reaction_q e); [apply t_pqueue_free|apply t_ret; reflexivity]|]. intros _.
  apply t_seq0.
  { destruct (e_modes e) as [m|]; [|apply t_ret; reflexivity]. cbn [modes_blocks]. touch_ KModes.
    apply t_seq0; [apply t_free|]. intros _. apply t_seq0; [apply t_free_opt|]. intros _. apply t_free. }
  intros _. apply t_last. apply t_free_opt.
Qed.
Lemma t_environment_init c : startable c ->
  triple [] (environment_init c) (fun e L => Permutation L (env_freed e ++ env_kept e) /\ env_shape c e /\ e_events e = [] /\ e_recycled e = []).
Proof.
  intros S. unfold environment_init.
  do 7 (eapply t_new; [apply t_alloc_if|]; intros ? ? [-> _]).
  eapply t_new; [apply t_alloc_if|]; intros wd ? [-> HW].
  do 2 (eapply t_new; [apply t_pqueue_init|]; intros ? ? ?).
  eapply t_new; [apply t_alloc_if|]; intros ? ? [-> _].
  eapply t_new with (Q := fun o L => Permutation L (match o with Some q => queue_blocks q | None => [] end)).
  { destruct (c_threaded c); [apply t_ret; reflexivity|]. eapply t_new; [apply t_pqueue_init|]. intros q L' PL. apply t_ret. rewrite app_nil_r. assumption. }
  intros rq ? ?.
  eapply t_new with (Q := fun o L => Permutation L (modes_blocks o)).
  { destruct (c_modal c && (0 <? c_modes c)); [|apply t_ret; reflexivity].
    do 2 (eapply t_new; [apply t_alloc|]; intros ? ? ->). eapply t_new; [apply t_alloc_if|]; intros ? ? [-> _].
    apply t_ret. cbn [modes_blocks m_states m_resets m_struct]. perm. }
  intros ms ? ?. eapply t_new; [apply t_alloc_if|]; intros ? ? [-> _].
  eapply t_new with (Q := fun o L => Permutation L (match o with Some s => sched_freed s | None => [] end ++ match o with Some s => sched_kept s | None => [] end) /\
    match c_threaded c, o with Some (k, _), Some s => sched_shape k s | None, None => True | _, _ => False end).
  { unfold startable in S. destruct (c_threaded c) as [[k w]|]; [|apply t_ret; split; [reflexivity|exact Logic.I]].
    eapply t_new; [apply t_sched_init; destruct k as [[[|]|]| |[[|]|]]; assumption|]. intros s L' [PL SH]. apply t_ret.
    split; [rewrite app_nil_r; assumption|assumption]. }
  intros sc L' [PL SH]. apply t_ret. split; [|split; [split; assumption|split; reflexivity]].
  unfold env_freed, env_kept. cbn [e_name e_timers e_startup e_shutdown e_reset e_present e_abbreviated e_watchdogs e_event_q e_recycle_q e_threads e_sched e_reaction_q e_modes e_intended e_events e_recycled map].
  perm.
Qed.

(** ** The program. *)
Definition ev (l : list nat) : list block := map (fun p => (p, KEvent)) l.
Definition nodes (l : list nat) : list block := map (fun p => (p, KNode)) l.
Definition env_blocks (e : environment) : list block := env_freed e ++ env_kept e.
Definition prog_blocks (p : program) : list block :=
  flat_map env_blocks (p_envs p) ++ flat_map reactor_blocks (p_reactors p) ++
  nodes (map fst (p_suspended p)) ++ ev (map snd (p_suspended p)) ++ nodes (p_unused p).
Definition pinv (cs : list config) (p : program) : Prop := Forall2 env_shape cs (p_envs p) /\ Forall rinv (p_reactors p).
Definition others (p : program) : nat := count_if (fun r => negb (r_first r) && (0 <? r_watchdogs r)) (p_reactors p).
Definition env_events (e : environment) : nat := List.length (e_events e) + List.length (e_recycled e).
Definition events (p : program) : nat := list_sum (map env_events (p_envs p)) + List.length (p_suspended p).

Lemma update_split {A} (l : list A) i e : nth_error l i = Some e ->
  exists l1 l2, l = l1 ++ e :: l2 /\ forall f, update i f l = l1 ++ f e :: l2.
Proof.
  revert i. induction l as [|a l IH]; intros [|i] E; cbn [nth_error] in E; try discriminate.
  - assert (a = e) by congruence. subst. exists [], l. split; [reflexivity|]. intros f. reflexivity.
  - destruct (IH i E) as (l1 & l2 & -> & U). exists (a :: l1), l2. split; [reflexivity|]. intros f. cbn [update app]. rewrite U. reflexivity.
Qed.
Lemma shape_replace cs l1 e l2 e' : Forall2 env_shape cs (l1 ++ e :: l2) -> (forall c, env_shape c e -> env_shape c e') ->
  Forall2 env_shape cs (l1 ++ e' :: l2).
Proof.
  intros F H. apply Forall2_app_inv_r in F. destruct F as (c1 & c2 & F1 & F2 & ->). inversion F2; subst.
  apply Forall2_app; [assumption|]. constructor; auto.
Qed.
Lemma events_replace l1 e l2 : list_sum (map env_events (l1 ++ e :: l2)) = list_sum (map env_events l1) + env_events e + list_sum (map env_events l2).
Proof. rewrite map_app, list_sum_app. cbn [map list_sum fold_right]. change (fold_right Nat.add 0 (map env_events l2)) with (list_sum (map env_events l2)). lia. Qed.

Definition step_post cs o p (p' : program) (L : list block) : Prop :=
  Permutation L (prog_blocks p') /\ pinv cs p' /\
  others p' = others p + (if other_mutex o then 1 else 0) /\
  events p' <= events p + (if new_event o then 1 else 0) /\
  (no_suspension o -> p_suspended p = [] /\ p_unused p = [] -> p_suspended p' = [] /\ p_unused p' = []) /\
  (no_watchdog o -> Forall (fun r => r_watchdogs r = 0) (p_reactors p) -> Forall (fun r => r_watchdogs r = 0) (p_reactors p')).
Lemma post_same cs o p : pinv cs p -> other_mutex o = false -> triple (prog_blocks p) (ret p) (step_post cs o p).
Proof.
  intros V E. apply t_ret. split; [reflexivity|]. rewrite E. repeat split; try apply V; try lia; try tauto.
Qed.
Lemma t_step cs o p : pinv cs p -> one_watchdog o -> triple (prog_blocks p) (step o p) (step_post cs o p).
Proof.
  intros [V R] W. pose proof (conj V R : pinv cs p) as V0. destruct o as [first w|i|i|i|i|i]; cbn [step].
  - unfold lf_new_reactor.
    eapply t_bind with (Q := fun r L => Permutation L (reactor_blocks r ++ prog_blocks p) /\ rinv r /\ r_first r = first /\ r_watchdogs r = w).
    { do 2 (eapply t_new; [apply t_alloc|]; intros ? ? ->).
      eapply t_new with (Q := fun o L => L = opt o KMutex /\ (o = None <-> w = 0)).
      { destruct (Nat.ltb_spec 0 w).
        - eapply t_new; [apply t_alloc|]; intros m ? ->. apply t_ret. split; [reflexivity|]. split; [discriminate|lia].
        - apply t_ret. split; [reflexivity|]. split; [lia|reflexivity]. }
      intros m L [-> HM]. apply t_ret. unfold reactor_blocks, base_blocks, mutex_block. cbn [r_allocations r_self r_record r_mutex flat_map].
      split; [perm|]. split; [split; [assumption|exact W]|split; reflexivity]. }
    intros r L (PL & RI & F1 & F2). apply t_ret.
    split; [unfold prog_blocks in *; cbn [p_envs p_reactors p_suspended p_unused flat_map]; perm|].
    split; [split; [assumption|constructor; assumption]|].
    split; [|split; [|split]].
    + unfold others, count_if. cbn [p_reactors filter other_mutex]. rewrite F1, F2. destruct first; cbn [negb andb]; [lia|].
      destruct (0 <? w); cbn [List.length]; lia.
    + unfold events. cbn [p_envs p_suspended new_event]. lia.
    + intros _ HH. exact HH.
    + intros NW HH. cbn [p_reactors no_watchdog] in *. constructor; [lia|assumption].
  - destruct (nth_error (p_reactors p) i) as [r|] eqn:E; [|apply post_same; [assumption|reflexivity]].
    destruct (update_split _ _ _ E) as (l1 & l2 & EL & U).
    eapply (t_touch_in _ KReactor).
    { unfold prog_blocks. rewrite EL, flat_map_app. cbn [flat_map]. unfold reactor_blocks at 2, base_blocks. here. }
    unfold lf_allocate.
    eapply t_bind with (Q := fun x L => exists m rc, x = (m, (rc, m) :: r_allocations r) /\ Permutation L ((rc, KRecord) :: (m, KOwned) :: prog_blocks p)).
    { eapply t_new; [apply t_alloc|]; intros m ? ->. eapply t_new; [apply t_alloc|]; intros rc ? ->. apply t_ret. exists m, rc. split; [reflexivity|]. cbn [app]. reflexivity. }
    intros x L (m & rc & -> & PL). apply t_ret. rewrite U. cbn [snd].
    rewrite EL in R. apply Forall_app in R. destruct R as [R1 R2]. inversion R2 as [|? ? R3 R4]; subst.
    split.
    { unfold prog_blocks in *. rewrite EL in PL. cbn [p_envs p_reactors p_suspended p_unused]. rewrite !flat_map_app in *. cbn [flat_map] in *.
      unfold reactor_blocks at 2, base_blocks, mutex_block. unfold reactor_blocks at 2, base_blocks, mutex_block in PL.
      cbn [r_allocations r_self r_record r_mutex with_allocations flat_map]. unfold rec_blocks at 1. cbn [fst snd]. perm. }
    split; [split; [assumption|apply Forall_app; split; [assumption|constructor; assumption]]|].
    split; [|split; [|split]].
    + unfold others, count_if. cbn [p_reactors other_mutex]. rewrite EL, !filter_app, !app_length. cbn [filter r_first r_watchdogs with_allocations].
      destruct (negb (r_first r) && (0 <? r_watchdogs r)); cbn [List.length]; lia.
    + unfold events. cbn [p_envs p_suspended]. lia.
    + intros _ HH. exact HH.
    + intros _ HH. rewrite EL in HH. cbn [p_reactors]. apply Forall_app in HH. destruct HH as [HH1 HH2]. inversion HH2; subst.
      apply Forall_app. split; [assumption|constructor; assumption].
  - destruct (nth_error (p_envs p) i) as [e|] eqn:E; [|apply post_same; [assumption|reflexivity]].
    destruct (update_split _ _ _ E) as (l1 & l2 & EL & U).
    eapply t_bind with (Q := fun x L => Permutation L (ev [fst x] ++ flat_map env_blocks (l1 ++ snd x :: l2) ++ flat_map reactor_blocks (p_reactors p) ++
        nodes (map fst (p_suspended p)) ++ ev (map snd (p_suspended p)) ++ nodes (p_unused p)) /\
        (forall c, env_shape c e -> env_shape c (snd x)) /\ env_events (snd x) <= env_events e).
    { unfold lf_get_new_event. destruct (e_recycled e) as [|v r] eqn:ER.
      - eapply t_new; [apply t_alloc|]; intros v ? ->. apply t_ret. cbn [fst snd]. split; [|split; [auto|lia]].
        unfold prog_blocks, ev. cbn [map]. rewrite EL. reflexivity.
      - apply t_ret. cbn [fst snd]. split; [|split; [intros c SH; exact SH|]].
        + unfold prog_blocks. rewrite EL, !flat_map_app. cbn [flat_map].
          unfold env_blocks at 2 5, env_kept, env_freed. cbn [e_name e_timers e_startup e_shutdown e_reset e_present e_abbreviated e_watchdogs e_event_q e_recycle_q e_threads e_sched e_reaction_q e_modes e_intended e_events e_recycled with_recycled].
          rewrite ER. unfold ev. cbn [map]. perm.
        + unfold env_events. cbn [e_events e_recycled with_recycled]. rewrite ER. cbn [List.length]. lia. }
    intros [v e'] L (PL & SH & EV). cbn [fst snd] in *. apply t_ret. rewrite U.
    split.
    { unfold prog_blocks. cbn [p_envs p_reactors p_suspended p_unused]. rewrite !flat_map_app in *. cbn [flat_map] in *.
      unfold env_blocks at 2, env_kept, env_freed. unfold env_blocks at 2, env_kept, env_freed in PL.
      cbn [e_name e_timers e_startup e_shutdown e_reset e_present e_abbreviated e_watchdogs e_event_q e_recycle_q e_threads e_sched e_reaction_q e_modes e_intended e_events e_recycled with_events].
      unfold ev in *. cbn [map] in *. perm. }
    split; [split; [cbn [p_envs]; rewrite EL in V; apply (shape_replace _ _ e); [assumption|intros c SC; exact (SH c SC)]|assumption]|].
    split; [unfold others; cbn [p_reactors other_mutex]; lia|]. split; [|split].
    + unfold events. cbn [p_envs p_suspended new_event]. rewrite EL, !events_replace.
      assert (env_events (with_events (v :: e_events e') e') = S (env_events e')) by (unfold env_events; cbn [e_events e_recycled with_events List.length]; lia). lia.
    + intros _ HH. exact HH.
    + intros _ HH. exact HH.
  - destruct (nth_error (p_envs p) i) as [e|] eqn:E; [|apply post_same; [assumption|reflexivity]].
    destruct (e_events e) as [|v r] eqn:EE; [apply post_same; [assumption|reflexivity]|].
    destruct (update_split _ _ _ E) as (l1 & l2 & EL & U).
    eapply (t_touch_in _ KEvent).
    { unfold prog_blocks. rewrite EL, flat_map_app. cbn [flat_map]. unfold env_blocks at 2, env_kept. rewrite EE. cbn [map]. here. }
    apply t_ret. rewrite U. split.
    { unfold prog_blocks. cbn [p_envs p_reactors p_suspended p_unused]. rewrite EL, !flat_map_app. cbn [flat_map].
      unfold env_blocks at 2 5, env_kept, env_freed. cbn [e_name e_timers e_startup e_shutdown e_reset e_present e_abbreviated e_watchdogs e_event_q e_recycle_q e_threads e_sched e_reaction_q e_modes e_intended e_events e_recycled with_recycled with_events].
      rewrite EE. cbn [map]. perm. }
    split; [split; [cbn [p_envs]; rewrite EL in V; apply (shape_replace _ _ e); [assumption|intros c SC; exact SC]|assumption]|].
    split; [unfold others; cbn [p_reactors other_mutex]; lia|]. split; [|split].
    + unfold events. cbn [p_envs p_suspended new_event]. rewrite EL, !events_replace. unfold env_events at 2 5. cbn [e_events e_recycled with_recycled with_events]. rewrite EE. cbn [List.length]. lia.
    + intros _ HH. exact HH.
    + intros _ HH. exact HH.
  - destruct (nth_error (p_envs p) i) as [e|] eqn:E; [|apply post_same; [assumption|reflexivity]].
    destruct (e_events e) as [|v r] eqn:EE; [apply post_same; [assumption|reflexivity]|].
    destruct (update_split _ _ _ E) as (l1 & l2 & EL & U).
    eapply t_bind with (Q := fun n L => Permutation L (nodes (n :: tl (p_unused p)) ++ flat_map env_blocks (p_envs p) ++ flat_map reactor_blocks (p_reactors p) ++
        nodes (map fst (p_suspended p)) ++ ev (map snd (p_suspended p)))).
    { destruct (p_unused p) as [|n u] eqn:EU.
      - eapply t_conseq; [eapply t_frame; apply (t_alloc KNode)|cbn [app]; reflexivity|].
        intros n L (L0 & -> & ->). eexists. split; [reflexivity|]. unfold prog_blocks, nodes. rewrite EU. cbn [map tl app]. rewrite !app_nil_r. reflexivity.
      - apply t_ret. unfold prog_blocks, nodes. rewrite EU. cbn [map tl]. perm. }
    intros n L PL. eapply (t_perm _ _ _ _ PL). eapply (t_touch_in _ KNode); [unfold nodes; cbn [map]; here|].
    apply t_ret. rewrite U. split.
    { unfold prog_blocks. clear PL. cbn [p_envs p_reactors p_suspended p_unused]. rewrite EL, !flat_map_app. cbn [flat_map].
      unfold env_blocks at 2 5, env_kept, env_freed. cbn [e_name e_timers e_startup e_shutdown e_reset e_present e_abbreviated e_watchdogs e_event_q e_recycle_q e_threads e_sched e_reaction_q e_modes e_intended e_events e_recycled with_events].
      rewrite EE. unfold nodes, ev. cbn [map fst snd]. perm. }
    split; [split; [cbn [p_envs]; rewrite EL in V; apply (shape_replace _ _ e); [assumption|intros c SC; exact SC]|assumption]|].
    split; [unfold others; cbn [p_reactors other_mutex]; lia|]. split; [|split].
    + unfold events. cbn [p_envs p_suspended new_event]. rewrite EL, !events_replace. unfold env_events at 2 5. cbn [e_events e_recycled with_events List.length]. rewrite EE. cbn [List.length]. lia.
    + intros [].
    + intros _ HH. exact HH.
  - destruct (nth_error (p_envs p) i) as [e|] eqn:E; [|apply post_same; [assumption|reflexivity]].
    destruct (p_suspended p) as [|[n v] r] eqn:ES; [apply post_same; [assumption|reflexivity]|].
    destruct (update_split _ _ _ E) as (l1 & l2 & EL & U).
    eapply (t_touch_in _ KNode); [unfold prog_blocks; rewrite ES; unfold nodes; cbn [map fst]; here|].
    apply t_ret. rewrite U. split.
    { unfold prog_blocks. cbn [p_envs p_reactors p_suspended p_unused]. rewrite ES, EL, !flat_map_app. cbn [flat_map].
      unfold env_blocks at 2 5, env_kept, env_freed. cbn [e_name e_timers e_startup e_shutdown e_reset e_present e_abbreviated e_watchdogs e_event_q e_recycle_q e_threads e_sched e_reaction_q e_modes e_intended e_events e_recycled with_events].
      unfold nodes, ev. cbn [map fst snd]. perm. }
    split; [split; [cbn [p_envs]; rewrite EL in V; apply (shape_replace _ _ e); [assumption|intros c SC; exact SC]|assumption]|].
    split; [unfold others; cbn [p_reactors other_mutex]; lia|]. split; [|split].
    + unfold events. cbn [p_envs p_suspended new_event]. rewrite ES, EL, !events_replace. unfold env_events at 2 5. cbn [e_events e_recycled with_events List.length]. lia.
    + rewrite ES. intros _ [HH _]. discriminate.
    + intros _ HH. exact HH.
Qed.

Definition run_post cs os p (p' : program) (L : list block) : Prop :=
  Permutation L (prog_blocks p') /\ pinv cs p' /\
  others p' = others p + count_if other_mutex os /\
  events p' <= events p + count_if new_event os /\
  (Forall no_suspension os -> p_suspended p = [] /\ p_unused p = [] -> p_suspended p' = [] /\ p_unused p' = []) /\
  (Forall no_watchdog os -> Forall (fun r => r_watchdogs r = 0) (p_reactors p) -> Forall (fun r => r_watchdogs r = 0) (p_reactors p')).
Lemma t_run cs os : forall p, pinv cs p -> Forall one_watchdog os -> triple (prog_blocks p) (run os p) (run_post cs os p).
Proof.
  induction os as [|o os IH]; intros p V W; cbn [run].
  - apply t_ret. unfold run_post, count_if. cbn [filter List.length]. split; [reflexivity|]. split; [assumption|].
    split; [lia|]. split; [lia|]. tauto.
  - inversion W; subst. eapply t_bind; [apply (t_step cs o p); assumption|].
    intros p1 L (PL & V1 & O1 & E1 & S1 & W1). eapply t_perm; [exact PL|].
    eapply t_conseq; [apply IH; assumption|reflexivity|]. intros p2 L2 (PL2 & V2 & O2 & E2 & S2 & W2).
    exists L2. split; [reflexivity|]. split; [assumption|]. split; [assumption|].
    unfold count_if in *. cbn [filter]. split; [destruct (other_mutex o); cbn [List.length]; lia|].
    split; [destruct (new_event o); cbn [List.length]; lia|]. split.
    + intros F HH. inversion F; subst. apply S2; [assumption|]. apply S1; assumption.
    + intros F HH. inversion F; subst. apply W2; [assumption|]. apply W1; assumption.
Qed.

(** ** Termination. *)
Lemma nodes_map l : nodes (map fst l) ++ ev (map snd l) = flat_map (fun x : nat * nat => [(fst x, KNode)]) l ++ ev (map snd l).
Proof. f_equal. unfold nodes. induction l as [|x l IH]; [reflexivity|]. cbn [map flat_map app]. rewrite IH. reflexivity. Qed.
Lemma nodes_pairs l : Permutation (nodes (map fst l) ++ ev (map snd l)) (flat_map (fun x : nat * nat => [(fst x, KNode)] ++ [(snd x, KEvent)]) l).
Proof.
  induction l as [|x l IH]; [reflexivity|]. cbn [map flat_map]. unfold nodes, ev in *. cbn [map]. perm.
Qed.
Lemma ev_map l : flat_map (fun x : nat * nat => [(snd x, KEvent)]) l = ev (map snd l).
Proof. unfold ev. induction l as [|x l IH]; [reflexivity|]. cbn [map flat_map app]. rewrite IH. reflexivity. Qed.
Lemma nodes_flat l : nodes l = flat_map (fun n => [(n, KNode)]) l.
Proof. unfold nodes. induction l as [|x l IH]; [reflexivity|]. cbn [map flat_map app]. rewrite IH. reflexivity. Qed.
Lemma t_terminate_modal cs p : pinv cs p -> triple (prog_blocks p) (terminate_modal p) (fun p' L =>
  pinv cs p' /\ p_reactors p' = p_reactors p /\
  exists rest, Permutation L (flat_map env_blocks (p_envs p') ++ flat_map reactor_blocks (p_reactors p) ++ rest) /\
    Permutation (rest ++ flat_map env_kept (p_envs p')) (ev (map snd (p_suspended p)) ++ flat_map env_kept (p_envs p))).
Proof.
  intros [V R]. unfold terminate_modal.
  set (base := flat_map env_blocks (p_envs p) ++ flat_map reactor_blocks (p_reactors p)).
  eapply t_perm with (P := flat_map (fun x : nat * nat => [(fst x, KNode)] ++ [(snd x, KEvent)]) (p_suspended p) ++ nodes (p_unused p) ++ base).
  { pose proof (nodes_pairs (p_suspended p)). unfold prog_blocks, base. perm. }
  eapply t_seq.
  { apply (t_each_keep _ _ (fun x : nat * nat => [(snd x, KEvent)])). apply Forall_forall. intros x _.
    touch_ KNode. touch_ KEvent. apply t_last. apply t_free. }
  intros _. rewrite ev_map. eapply t_perm with (P := nodes (p_unused p) ++ (ev (map snd (p_suspended p)) ++ base)); [perm|].
  apply t_seq0.
  { rewrite nodes_flat. apply t_each_. apply Forall_forall. intros n _. touch_ KNode. apply t_free. }
  intros _. apply t_ret. cbn [p_envs p_reactors]. split; [|split; [reflexivity|]].
  - split; [|assumption]. cbn [p_envs]. inversion V as [|c e cs' es SH F]; subst; [constructor|]. constructor; [exact SH|assumption].
  - unfold base. destruct (p_envs p) as [|e r].
    + exists (ev (map snd (p_suspended p))). split; [cbn [flat_map]; perm|]. cbn [flat_map]. reflexivity.
    + exists []. assert (X : Permutation (env_kept (with_recycled (map snd (p_suspended p) ++ e_recycled e) e)) (ev (map snd (p_suspended p)) ++ env_kept e)).
      { unfold env_kept, ev. cbn [e_watchdogs e_sched e_events e_recycled with_recycled]. rewrite map_app. perm. }
      assert (Y : env_freed (with_recycled (map snd (p_suspended p) ++ e_recycled e) e) = env_freed e) by reflexivity.
      cbn [flat_map]. unfold env_blocks at 3. rewrite Y. unfold env_blocks at 1. split; perm.
Qed.
Lemma rinv_zero r : rinv r -> r_watchdogs r = 0 -> mutex_block r = [].
Proof. intros [V _] Z. unfold mutex_block. rewrite (proj2 V Z). reflexivity. Qed.
Lemma zero_mutexes l : Forall rinv l -> Forall (fun r => r_watchdogs r = 0) l ->
  flat_map reactor_blocks l = flat_map (fun r => base_blocks r ++ other_mutex_block r) l.
Proof.
  induction 1 as [|r l V _ IH]; intros Z; [reflexivity|]. inversion Z; subst. cbn [flat_map]. rewrite (IH H2).
  unfold reactor_blocks, other_mutex_block. rewrite (rinv_zero r V H1). destruct (r_first r); reflexivity.
Qed.
Definition final_leak (p : program) : list block :=
  ev (map snd (p_suspended p)) ++ flat_map env_kept (p_envs p) ++ flat_map other_mutex_block (p_reactors p).
Lemma t_envs cs es : Forall2 env_shape cs es -> cleans (flat_map env_blocks es) (each_ environment_free es) (flat_map env_kept es).
Proof.
  intros F. apply t_each_keep. induction F as [|c e cs es SH _ IH]; constructor; [|assumption].
  apply (t_environment_free c). assumption.
Qed.
Lemma t_termination cs modal threaded p : pinv cs p ->
  (modal = true \/ p_suspended p = [] /\ p_unused p = []) ->
  (threaded = true \/ Forall (fun r => r_watchdogs r = 0) (p_reactors p)) ->
  triple (prog_blocks p) (termination modal threaded p) (fun _ L => Permutation L (final_leak p)).
Proof.
  intros V MO TH. unfold termination.
  eapply t_bind with (Q := fun p' L => pinv cs p' /\ p_reactors p' = p_reactors p /\
    exists rest, Permutation L (flat_map env_blocks (p_envs p') ++ flat_map reactor_blocks (p_reactors p) ++ rest) /\
    Permutation (rest ++ flat_map env_kept (p_envs p')) (ev (map snd (p_suspended p)) ++ flat_map env_kept (p_envs p))).
  { destruct modal; [apply t_terminate_modal; assumption|]. destruct MO as [MO|[S0 U0]]; [discriminate|].
    apply t_ret. split; [assumption|]. split; [reflexivity|]. exists []. unfold prog_blocks. rewrite S0, U0. cbn [map]. unfold nodes, ev. cbn [map]. split; [perm|reflexivity]. }
  intros p' L ([V1 R1] & ER & rest & PL & PK). rewrite ER in *.
  eapply t_perm; [exact PL|].
  eapply t_perm with (P := flat_map reactor_blocks (p_reactors p) ++ (flat_map env_blocks (p_envs p') ++ rest)); [perm|].
  eapply t_seq with (Y := flat_map (fun r => base_blocks r ++ other_mutex_block r) (p_reactors p)).
  { destruct threaded; [apply t_mutexes; assumption|]. destruct TH as [TH|Z]; [discriminate|].
    apply t_ret. apply zero_mutexes; assumption. }
  intros _. eapply t_seq; [apply t_reactors|]. intros _.
  eapply t_conseq with (P := flat_map env_blocks (p_envs p') ++ (rest ++ flat_map other_mutex_block (p_reactors p)));
    [apply t_frame; apply (t_envs cs); assumption|perm|].
  intros u L1 (L0 & -> & ->). eexists. split; [reflexivity|]. unfold final_leak. perm.
Qed.

(** ** Counting. *)
Lemma count_app k a b : count k (a ++ b) = count k a + count k b.
Proof. unfold count. rewrite filter_app, app_length. reflexivity. Qed.
Lemma count_perm k a b : Permutation a b -> count k a = count k b.
Proof.
  induction 1 as [|x a b _ IH|x y a|a b c _ IH1 _ IH2]; unfold count in *; cbn [filter]; try lia.
  - destruct (kind_eq_dec (snd x) k); cbn [List.length]; lia.
  - destruct (kind_eq_dec (snd x) k), (kind_eq_dec (snd y) k); cbn [List.length]; lia.
Qed.
Lemma count_map_other k k' l : k <> k' -> count k (map (fun p : nat => (p, k')) l) = 0.
Proof. intros N. unfold count. induction l as [|x l IH]; [reflexivity|]. cbn [map filter snd]. destruct (kind_eq_dec k' k); [congruence|assumption]. Qed.
Lemma count_map_same k l : count k (map (fun p : nat => (p, k)) l) = List.length l.
Proof. unfold count. induction l as [|x l IH]; [reflexivity|]. cbn [map filter snd]. destruct (kind_eq_dec k k); [cbn [List.length]; lia|congruence]. Qed.
Definition b2n (b : bool) : nat := if b then 1 else 0.
Lemma count_if_cons {A} f (a : A) l : count_if f (a :: l) = b2n (f a) + count_if f l.
Proof. unfold count_if. cbn [filter]. destruct (f a); reflexivity. Qed.
Lemma env_kept_count c e k : env_shape c e -> k <> KEvent -> count k (env_kept e) = if kind_eq_dec k KMutex then 0 else leaked [c] [] k.
Proof.
  intros [W SH] NE. unfold env_kept. rewrite !count_app, !count_map_other by assumption.
  assert (X : count k (opt (e_watchdogs e) KWatchdogs) = if kind_eq_dec k KWatchdogs then b2n (0 <? c_watchdogs c) else 0).
  { destruct (0 <? c_watchdogs c); destruct (e_watchdogs e); try congruence; destruct k; reflexivity. }
  rewrite X. clear X W.
  destruct k; try congruence; unfold leaked, count_if; cbn [filter kind_eq_dec];
  unfold is_threaded, is_np, is_adaptive, b2n;
  destruct (c_threaded c) as [[[o| |o] w]|]; destruct (e_sched e) as [[i [[cc d]|]|i cc q|i cc a]|]; try contradiction; cbn;
  try reflexivity; try (destruct (c_watchdogs c); reflexivity).
Qed.
Lemma leaked_cons c cs k : k <> KMutex -> leaked (c :: cs) [] k = leaked [c] [] k + leaked cs [] k.
Proof. intros N. destruct k; try congruence; unfold leaked; rewrite ?count_if_cons; unfold count_if; cbn [filter List.length]; lia. Qed.
Lemma envs_kept_count cs es k : Forall2 env_shape cs es -> k <> KEvent ->
  count k (flat_map env_kept es) = if kind_eq_dec k KMutex then 0 else leaked cs [] k.
Proof.
  intros F NE. induction F as [|c e cs es SH _ IH].
  - destruct k; reflexivity.
  - cbn [flat_map]. rewrite count_app, (env_kept_count c e k SH NE), IH. destruct (kind_eq_dec k KMutex) as [|N]; [reflexivity|].
    rewrite (leaked_cons c cs k N). reflexivity.
Qed.
Lemma envs_kept_events cs es : Forall2 env_shape cs es -> count KEvent (flat_map env_kept es) = list_sum (map env_events es).
Proof.
  intros F. induction F as [|c e cs es [W SH] _ IH]; [reflexivity|]. cbn [flat_map map]. rewrite count_app, IH.
  change (list_sum (env_events e :: map env_events es)) with (env_events e + list_sum (map env_events es)). f_equal.
  unfold env_kept. rewrite !count_app, !count_map_same.
  assert (count KEvent (opt (e_watchdogs e) KWatchdogs) = 0) as -> by (destruct (e_watchdogs e); reflexivity).
  assert (count KEvent match e_sched e with Some s => sched_kept s | None => [] end = 0) as -> by (destruct (e_sched e) as [[i [[cc d]|]|i cc q|i cc a]|]; reflexivity).
  reflexivity.
Qed.
Lemma other_count l k : Forall rinv l -> count k (flat_map other_mutex_block l) =
  if kind_eq_dec k KMutex then count_if (fun r => negb (r_first r) && (0 <? r_watchdogs r)) l else 0.
Proof.
  induction 1 as [|r l [V _] _ IH]; [destruct k; reflexivity|]. cbn [flat_map]. rewrite count_app, IH, count_if_cons.
  unfold other_mutex_block, mutex_block. destruct (r_first r); cbn [negb andb b2n].
  - reflexivity.
  - destruct (r_mutex r) as [m|].
    + assert ((0 <? r_watchdogs r) = true) as ->.
      { apply Nat.ltb_lt. destruct (r_watchdogs r); [|lia]. assert (Some m = None) by (apply V; reflexivity). discriminate. }
      destruct k; reflexivity.
    + rewrite (proj1 V eq_refl). destruct k; reflexivity.
Qed.
Lemma leaked_ops cs os k : k <> KMutex -> leaked cs os k = leaked cs [] k.
Proof. intros N. destruct k; try congruence; reflexivity. Qed.

(** ** Events are used again. *)
Lemma t_pure {A} P (m : M A) Q (R : A -> Prop) : triple P m Q -> (forall h a h', m h = Ok (a, h') -> R a) ->
  triple P m (fun a L => Q a L /\ R a).
Proof.
  intros T HR h F W L. destruct (T h F W L) as (a & h' & L' & E & W' & HQ & PL).
  exists a, h', L'. split; [assumption|]. split; [assumption|]. split; [split; [assumption|apply (HR h a h' E)]|assumption].
Qed.
Definition info (e : environment) : nat * nat := (List.length (e_events e), env_events e).
Lemma nth_update {A} (f : A -> A) l : forall i j, nth_error (update j f l) i = if i =? j then option_map f (nth_error l i) else nth_error l i.
Proof.
  induction l as [|a l IH]; intros i j; cbn [update].
  - destruct j; cbn [update]; destruct i; destruct (_ =? _); reflexivity.
  - destruct j as [|j]; cbn [update]; destruct i as [|i]; cbn [nth_error Nat.eqb]; try reflexivity. apply IH.
Qed.
Definition tracks o (p p' : program) : Prop :=
  p_suspended p' = [] /\ forall i, option_map info (nth_error (p_envs p') i) = option_map (demand i o) (option_map info (nth_error (p_envs p) i)).
Lemma tracks_same o p p' : p_suspended p' = [] -> p_envs p' = p_envs p -> (forall i x, demand i o x = x) -> tracks o p p'.
Proof. intros ES E D. split; [assumption|]. intros i. rewrite E. destruct (nth_error (p_envs p) i); cbn [option_map]; [rewrite D|]; reflexivity. Qed.
Lemma tracks_update o p p' j e f : p_suspended p' = [] -> p_envs p' = update j f (p_envs p) -> nth_error (p_envs p) j = Some e ->
  info (f e) = demand j o (info e) -> (forall i x, i <> j -> demand i o x = x) -> tracks o p p'.
Proof.
  intros ES E N D O. split; [assumption|]. intros i. rewrite E, nth_update. destruct (Nat.eqb_spec i j) as [->|ne].
  - rewrite N. cbn [option_map]. rewrite D. reflexivity.
  - destruct (nth_error (p_envs p) i); cbn [option_map]; [rewrite O by assumption|]; reflexivity.
Qed.
Lemma tracks_missing o p j : p_suspended p = [] -> nth_error (p_envs p) j = None -> (forall i x, i <> j -> demand i o x = x) -> tracks o p p.
Proof.
  intros ES N O. split; [assumption|]. intros i. destruct (Nat.eqb_spec i j) as [->|ne]; [rewrite N; reflexivity|].
  destruct (nth_error (p_envs p) i); cbn [option_map]; [rewrite O by assumption|]; reflexivity.
Qed.
Lemma bind_ok {A B} (m : M A) (f : A -> M B) h y : bindM m f h = Ok y -> exists a h1, m h = Ok (a, h1) /\ f a h1 = Ok y.
Proof. unfold bindM. destruct (m h) as [[a h1]|]; [|discriminate]. intros E. exists a, h1. split; [reflexivity|assumption]. Qed.
Lemma step_tracks o p h p' h' : p_suspended p = [] -> no_suspension o -> step o p h = Ok (p', h') -> tracks o p p'.
Proof.
  intros ES NS. destruct o as [first w|i|i|i|i|i]; cbn [step].
  - intros E. apply bind_ok in E. destruct E as (r & h1 & _ & E). unfold ret in E. assert (p' = mkProgram (p_envs p) (r :: p_reactors p) (p_suspended p) (p_unused p)) as -> by congruence.
    apply tracks_same; [assumption|reflexivity|reflexivity].
  - destruct (nth_error (p_reactors p) i) as [r|].
    + intros E. apply bind_ok in E. destruct E as ([] & h1 & _ & E). apply bind_ok in E. destruct E as (x & h2 & _ & E). unfold ret in E.
      assert (X : p' = mkProgram (p_envs p) (update i (with_allocations (snd x)) (p_reactors p)) (p_suspended p) (p_unused p)) by congruence.
      rewrite X. apply tracks_same; [assumption|reflexivity|reflexivity].
    + intros E. unfold ret in E. assert (p' = p) as -> by congruence. apply tracks_same; [assumption|reflexivity|reflexivity].
  - assert (O : forall k x, k <> i -> demand k (NewEvent i) x = x).
    { intros k x ne. cbn [demand]. destruct (Nat.eqb_spec k i); [contradiction|reflexivity]. }
    destruct (nth_error (p_envs p) i) as [e|] eqn:N.
    + intros E. apply bind_ok in E. destruct E as ([v e'] & h1 & G & E).
      assert (ID : List.length (e_events e') = List.length (e_events e) /\ S (env_events e') = Nat.max (env_events e) (S (List.length (e_events e)))).
      { unfold lf_get_new_event in G. unfold env_events. destruct (e_recycled e) as [|u r] eqn:ER.
        - apply bind_ok in G. destruct G as (u & h2 & _ & G). unfold ret in G. assert (e' = e) as -> by congruence. rewrite ER. cbn [List.length]. lia.
        - unfold ret in G. assert (e' = with_recycled r e) as -> by congruence. cbn [e_events e_recycled with_recycled List.length]. lia. }
      cbn [fst snd] in E. unfold ret in E.
      eapply (tracks_update _ _ _ i e (fun _ => with_events (v :: e_events e') e')); [| |exact N| |exact O].
      * assert (X : p_suspended p' = p_suspended p) by (injection E as <- _; reflexivity). rewrite X. assumption.
      * injection E as <- _. reflexivity.
      * unfold info. cbn [demand fst snd]. rewrite Nat.eqb_refl. destruct ID as [I1 I2].
        unfold env_events at 1. cbn [e_events e_recycled with_events List.length]. unfold env_events at 1 in I2. f_equal; lia.
    + intros E. unfold ret in E. assert (p' = p) as -> by congruence. apply (tracks_missing _ _ i); assumption.
  - assert (O : forall k x, k <> i -> demand k (HandleEvent i) x = x).
    { intros k x ne. cbn [demand]. destruct (Nat.eqb_spec k i); [contradiction|reflexivity]. }
    destruct (nth_error (p_envs p) i) as [e|] eqn:N.
    + destruct (e_events e) as [|v r] eqn:EE.
      * intros E. unfold ret in E. assert (p' = p) as -> by congruence.
        split; [assumption|]. intros k. destruct (Nat.eqb_spec k i) as [->|ne].
        -- rewrite N. cbn [option_map demand]. rewrite Nat.eqb_refl. unfold info. rewrite EE. reflexivity.
        -- destruct (nth_error (p_envs p) k); cbn [option_map]; [rewrite O by assumption|]; reflexivity.
      * intros E. apply bind_ok in E. destruct E as ([] & h1 & _ & E). unfold ret in E.
        eapply (tracks_update _ _ _ i e (fun _ => with_recycled (v :: e_recycled e) (with_events r e))); [| |exact N| |exact O].
        -- assert (X : p_suspended p' = p_suspended p) by (injection E as <- _; reflexivity). rewrite X. assumption.
        -- injection E as <- _. reflexivity.
        -- unfold info. cbn [demand fst snd]. rewrite Nat.eqb_refl. unfold env_events.
           cbn [e_events e_recycled with_events with_recycled]. rewrite EE. cbn [List.length]. f_equal; lia.
    + intros E. unfold ret in E. assert (p' = p) as -> by congruence. apply (tracks_missing _ _ i); assumption.
  - destruct NS.
  - rewrite ES. intros E. assert (p' = p) as ->.
    { destruct (nth_error (p_envs p) i); unfold ret in E; congruence. }
    apply tracks_same; [assumption|reflexivity|reflexivity].
Qed.
Lemma run_tracks os : forall p h p' h', p_suspended p = [] -> Forall no_suspension os -> run os p h = Ok (p', h') ->
  forall i, option_map info (nth_error (p_envs p') i) = option_map (fun x => fold_left (fun x o => demand i o x) os x) (option_map info (nth_error (p_envs p) i)).
Proof.
  induction os as [|o os IH]; intros p h p' h' ES NS E i; cbn [run] in E.
  - unfold ret in E. assert (p' = p) as -> by congruence. destruct (nth_error (p_envs p) i); reflexivity.
  - apply bind_ok in E. destruct E as (p1 & h1 & E1 & E2). inversion NS; subst.
    destruct (step_tracks o p h p1 h1 ES H1 E1) as [S1 T1].
    rewrite (IH p1 h1 p' h' S1 H2 E2 i), T1. destruct (nth_error (p_envs p) i); reflexivity.
Qed.
Lemma sum_by_index (es : list environment) : forall s f, (forall i e, nth_error es i = Some e -> env_events e = f (s + i)) ->
  map env_events es = map f (seq s (List.length es)).
Proof.
  induction es as [|e es IH]; intros s f G; [reflexivity|]. cbn [map List.length seq]. f_equal.
  - rewrite (G 0 e eq_refl). f_equal. lia.
  - apply IH. intros i e' N. rewrite (G (S i) e' N). f_equal. lia.
Qed.

Theorem life_exact modal threaded envs os h0 : wf h0 -> Forall startable envs -> Forall one_watchdog os ->
  (modal = true \/ Forall no_suspension os) -> (threaded = true \/ Forall no_watchdog os) ->
  exists h leak, life modal threaded envs os h0 = Ok (tt, h) /\ Permutation (live h) (leak ++ live h0) /\
    (forall k, k <> KEvent -> count k leak = leaked envs os k) /\ count KEvent leak <= count_if new_event os /\
    (Forall no_suspension os -> count KEvent leak = peaks (List.length envs) os).
Proof.
  intros W S0 OW MO TH.
  assert (T : triple [] (life modal threaded envs os) (fun _ L =>
    (forall k, k <> KEvent -> count k L = leaked envs os k) /\ count KEvent L <= count_if new_event os /\
    (Forall no_suspension os -> count KEvent L = peaks (List.length envs) os))).
  { unfold life. eapply t_bind.
    { apply t_each with (Y := env_blocks) (phi := fun c e => env_shape c e /\ info e = (0, 0)).
      apply Forall_forall. intros c I. rewrite Forall_forall in S0. specialize (S0 c I). 
      eapply t_conseq; [apply (t_environment_init c S0)|reflexivity|]. intros e L HH. cbv beta in HH. exists L. split; [reflexivity|].
      destruct HH as (H1 & H2 & H3 & H4). split; [exact H1|]. split; [exact H2|]. unfold info, env_events. rewrite H3, H4. reflexivity. }
    intros es L [PL F].
    assert (F1 : Forall2 env_shape envs es) by (clear -F; induction F as [|? ? ? ? [? ?] ? ?]; constructor; auto).
    assert (F0 : list_sum (map env_events es) = 0).
    { clear -F. induction F as [|c e ? ? [? E0] ? IH]; [reflexivity|]. cbn [map]. unfold list_sum in *. cbn [fold_right].
      assert (env_events e = 0) as -> by (unfold info in E0; congruence). rewrite IH. reflexivity. }
    assert (FI : forall i e, nth_error es i = Some e -> info e = (0, 0)).
    { clear -F. induction F as [|c e ? ? [? E0] ? IH]; intros [|i] e' N; cbn [nth_error] in N; try discriminate; [congruence|apply (IH i e' N)]. }
    eapply t_bind.
    { eapply t_perm; [|apply t_pure with (R := fun p' => Forall no_suspension os -> forall i, option_map info (nth_error (p_envs p') i) = option_map (fun x => fold_left (fun x o => demand i o x) os x) (option_map info (nth_error es i)));
        [apply (t_run envs os (mkProgram es [] [] [])); [split; [assumption|constructor]|assumption]|]].
      2: { intros h a h' E NS i. apply (run_tracks os (mkProgram es [] [] []) h a h' eq_refl NS E). }
      unfold prog_blocks. cbn [p_envs p_reactors p_suspended p_unused]. rewrite PL. cbn [map flat_map]. unfold nodes, ev. cbn [map]. perm. }
    intros p L1 ((PL1 & [V1 V2] & O1 & E1 & S1 & W1) & TR). eapply t_perm; [exact PL1|].
    eapply t_conseq; [apply (t_termination envs); [split; assumption| |]|reflexivity|].
    - destruct MO as [->|NS]; [left; reflexivity|]. right. apply S1; [assumption|]. split; reflexivity.
    - destruct TH as [->|NW]; [left; reflexivity|]. right. apply W1; [assumption|constructor].
    - intros u L2 PL2. exists L2. split; [reflexivity|]. split.
      + intros k NE. rewrite (count_perm k _ _ PL2). unfold final_leak. rewrite !count_app.
        unfold ev. rewrite count_map_other by assumption. rewrite (envs_kept_count envs) by assumption.
        rewrite other_count by assumption. destruct (kind_eq_dec k KMutex) as [->|N].
        * unfold others in O1. cbn [p_reactors count_if filter List.length] in O1. cbn [leaked]. lia.
        * rewrite (leaked_ops envs os k N). lia.
      + assert (CE : count KEvent L2 = events p).
        { rewrite (count_perm KEvent _ _ PL2). unfold final_leak. rewrite !count_app. unfold ev. rewrite count_map_same, map_length.
        rewrite (envs_kept_events envs) by assumption. rewrite other_count by assumption. cbn [kind_eq_dec].
          unfold events. destruct (kind_eq_dec KEvent KMutex); [discriminate|]. lia. }
        rewrite CE. split.
        { unfold events in E1 at 2. cbn [p_envs p_suspended List.length] in E1. lia. }
        intros NS. destruct (S1 NS (conj eq_refl eq_refl)) as [SS _]. unfold events. rewrite SS. cbn [List.length]. rewrite Nat.add_0_r.
        unfold peaks. rewrite (sum_by_index (p_envs p) 0 (fun i => peak i os)).
        { assert (X : List.length envs = List.length (p_envs p)) by (clear -V1; induction V1; cbn [List.length]; congruence). rewrite X. reflexivity. }
        intros i e N. specialize (TR NS i). rewrite N in TR. cbn [option_map] in TR.
        destruct (nth_error es i) as [e0|] eqn:N0; [|discriminate]. cbn [option_map] in TR. rewrite (FI i e0 N0) in TR.
        assert (X : snd (info e) = peak i os) by (unfold peak; congruence). exact X. }
  destruct (T h0 (live h0) W (Permutation_refl _)) as (u & h & L & E & _ & (Q1 & Q2 & Q3) & PL). destruct u.
  exists h, L. split; [assumption|]. split; [assumption|]. split; [assumption|]. split; assumption.
Qed.
