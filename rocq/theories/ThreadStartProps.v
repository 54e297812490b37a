(** The start of a threaded program: property C96. *)
From Verif Require Import Base Trace TraceSpec ThreadStart ThreadStartSpec ThreadStartProofs.
Local Open Scope nat_scope.

(** The number of workers: the command line comes first, then the program, then the smaller of the number of
    cores and the breadth of the reaction graph; if the breadth is positive there is at least one worker.
    Missing for the full property: a breadth of zero and a failing query for the cores, see below. *)
Theorem C96_workers_partial given fixed cores breadth :
  (0 <= given < 4294967296 -> 0 < cores < 2147483648 ->
   match fixed with Some k => 0 <= k < 2147483648 | None => True end ->
   match breadth with Some b => 0 < b < 2147483648 | None => True end ->
   let w := determine_number_of_workers given fixed cores breadth in
   0 < w /\
   (0 < given -> w = given) /\
   (given = 0 -> forall k, fixed = Some k -> 0 < k -> w = k) /\
   (given = 0 -> fixed = None \/ fixed = Some 0 ->
      w <= cores /\ match breadth with Some b => w <= b /\ (w = cores \/ w = b) | None => w = cores end))%Z.
Proof.
  intros G C F B. cbn zeta. unfold determine_number_of_workers, automatic, unsigned.
  assert (Ms : forall z, (0 <= z < 2147483648 -> z mod 4294967296 = z)%Z) by (intros z Hz; apply Z.mod_small; lia).
  rewrite (Ms cores) by lia.
  assert (A : (0 < match breadth with Some b => if (b mod 4294967296 <? cores)%Z then b mod 4294967296 else cores | None => cores end <= cores)%Z
    /\ match breadth with Some b => (if (b mod 4294967296 <? cores)%Z then b mod 4294967296 else cores) <= b
         /\ ((if (b mod 4294967296 <? cores)%Z then b mod 4294967296 else cores) = cores \/ (if (b mod 4294967296 <? cores)%Z then b mod 4294967296 else cores) = b)
       | None => True end%Z).
  { destruct breadth as [b|]; [|split; [lia|exact Logic.I]]. rewrite (Ms b) by lia. destruct (Z.ltb_spec b cores); repeat split; try lia; auto. }
  destruct (Z.eqb_spec given 0) as [->|N].
  - destruct fixed as [k|].
    + destruct (Z.eqb_spec k 0) as [->|K].
      * split; [apply A|]. split; [lia|]. split; [intros _ k [= <-]; lia|]. intros _ _. split; [apply A|]. destruct breadth; [apply A|reflexivity].
      * rewrite (Ms k) by lia. split; [lia|]. split; [lia|]. split; [intros _ k' [= <-] _; reflexivity|]. intros _ [X|X]; [discriminate X|injection X as X; contradiction].
    + split; [apply A|]. split; [lia|]. split; [intros _ k [=]|]. intros _ _. split; [apply A|]. destruct breadth; [apply A|reflexivity].
  - split; [lia|]. split; [auto|]. split; intros; contradiction.
Qed.
Example C96_workers_ex : determine_number_of_workers 0 None 8 (Some 3%Z) = 3%Z /\ determine_number_of_workers 0 (Some 5%Z) 8 (Some 3%Z) = 5%Z
  /\ determine_number_of_workers 2 (Some 5%Z) 8 (Some 3%Z) = 2%Z.
Proof. repeat split. Qed.

(** Every worker thread is created once and joined once, the first worker of the first environment runs on the main
    thread instead; nothing is joined before every worker is under way, and the function returns at the end. *)
Theorem C96_once ok p : (forall t, is_worker p t -> ok t = true) ->
  let a := main_actions ok p in
  NoDup a
  /\ (forall t, In (Create t) a <-> is_worker p t /\ t <> Worker 0 0)
  /\ (forall t, In (RunHere t) a <-> is_worker p t /\ t = Worker 0 0)
  /\ (forall t, In (Join t) a <-> is_worker p t /\ t <> Worker 0 0)
  /\ (forall t, ~ In (Failed t) a)
  /\ (forall a1 t a2, a = a1 ++ Join t :: a2 -> forall u, is_worker p u -> In (Create u) a1 \/ In (RunHere u) a1)
  /\ exists a1, a = a1 ++ [Return].
Proof. apply once. Qed.
(** If a worker cannot be created, the program exits there and then: no reaction runs on the main thread. *)
Theorem C96_fails ok p t : is_worker p t -> t <> Worker 0 0 -> ok t = false ->
  exists a u, main_actions ok p = map Create a ++ [Failed u] /\ ok u = false /\ is_worker p u.
Proof. apply fails. Qed.
Example C96_once_ex : let p := mkProgram [(2, 1); (1, 0)] None in
  main_actions (fun _ => true) p
    = [Create (Worker 0 1); Create (Worker 1 0); RunHere (Worker 0 0); Join (Worker 0 1); Join (Worker 1 0); Return]
  /\ main_actions (fun t => negb (thread_eqb t (Worker 1 0))) p = [Create (Worker 0 1); Failed (Worker 1 0)].
Proof. repeat split. Qed.

(** The trace: in a program without watchdogs, whose environments have no more workers than the first one, whatever
    the order in which the threads begin and whatever they record, no event is lost, the program does not exit, and
    nothing is written out of bounds; each thread has its own place, and all other threads share one.
    Missing for the full property: the programs of the refutations below. *)
Theorem C96_places_partial p l : plain p -> file_works l ->
  match run (threads p) (start (buffers_for p)) l with
  | Went s =>
      (forall t u, In t (begun s) -> In u (begun s) -> lf_thread_id s t = lf_thread_id s u -> t = u)
      /\ (forall t, In t (begun s) -> in_file (lf_thread_id s t) (written (stop (tr s) (fun _ => IoOk))) = recorded t l)
      /\ in_file (-1) (written (stop (tr s) (fun _ => IoOk))) = recorded_outside (threads p) l
  | Impossible => True
  | Exited | OutOfBounds => False
  end.
Proof. intros P. apply places. now apply plain_fits. Qed.
(** All orders are possible. *)
Theorem C96_orders p order : NoDup (Main :: order) -> incl (Main :: order) (threads p) ->
  run (threads p) (start (buffers_for p)) (map Begin (Main :: order))
    = Went (mkState (Main :: order) (trace0 (Z.of_nat (buffers_for p)) true)).
Proof. intros A B. rewrite begin_all; [reflexivity|exact A|exact B|eauto]. Qed.
(** The same for the RTI. *)
Theorem C96_rti n l : 1 <= n -> file_works l ->
  match run (rti_threads n) (start (rti_buffers n)) l with
  | Went s =>
      (forall t u, In t (begun s) -> In u (begun s) -> lf_thread_id s t = lf_thread_id s u -> t = u)
      /\ (forall t, In t (begun s) -> in_file (lf_thread_id s t) (written (stop (tr s) (fun _ => IoOk))) = recorded t l)
      /\ in_file (-1) (written (stop (tr s) (fun _ => IoOk))) = recorded_outside (rti_threads n) l
  | Impossible => True
  | Exited | OutOfBounds => False
  end.
Proof. intros P. apply places. rewrite rti_length. unfold rti_buffers. lia. Qed.
Example C96_places_ex :
  let p := mkProgram [(2, 0); (2, 0)] None in
  let l := [Begin Main; Event Main 1%Z IoOk; Begin (Worker 1 0); Event (Worker 1 0) 2%Z IoOk; Begin (Worker 0 0); Event (User 0) 3%Z IoOk;
            Begin (Worker 1 1); Begin (Worker 0 1); Event (Worker 0 1) 4%Z IoOk; Event (Worker 1 0) 5%Z IoOk] in
  plain p /\ file_works l /\
  match run (threads p) (start (buffers_for p)) l with
  | Went s => lf_thread_id s (Worker 0 1) = 4%Z /\ recorded (Worker 1 0) l = [2%Z; 5%Z]
  | _ => False
  end.
Proof.
  cbn zeta. split; [|split].
  - split; [reflexivity|]. split; [|exact Logic.I]. constructor; [cbn; lia|]. constructor; [cbn; lia|constructor].
  - unfold file_works. repeat (apply Forall_cons; [first [reflexivity|exact Logic.I]|]). apply Forall_nil.
  - vm_compute. split; reflexivity.
Qed.
Example C96_federate_ex : plain (mkProgram [(3, 0)] (Some (mkFed 4 3 true true))) /\ 1 <= 2.
Proof. unfold plain. cbn. repeat split; try lia. repeat constructor. Qed.

(** Exactly which programs break their trace: those with more threads than buffers. *)
Theorem C96_exact p : (exists w, is_worker p w) ->
  (breaks (threads p) (buffers_for p)
   <-> buffers_for p < 1 + total_workers p + total_watchdogs p + match fed p with Some f => extra f | None => 0 end).
Proof.
  intros (w & W). rewrite <- threads_length. unfold threads. apply exact.
  - exact (threads_nodup p).
  - intros Q. apply is_worker_thread in W. rewrite Q in W. exact W.
  - unfold buffers_for. lia.
Qed.

(** Watchdogs are not counted: in every program with a watchdog any worker may get an identifier without a buffer,
    and its first event is written out of bounds. *)
Theorem C96_watchdog_refuted p w r : fed p = None -> 1 <= total_watchdogs p ->
  Forall (fun wd => fst wd = first_workers p) (envs p) -> is_worker p w ->
  exists order, NoDup (Main :: order ++ [w]) /\ incl (Main :: order ++ [w]) (threads p) /\
    run (threads p) (start (buffers_for p)) (map Begin (Main :: order ++ [w]) ++ [Event w r IoOk]) = OutOfBounds.
Proof.
  intros Fd D Q W. apply too_many.
  - exact (threads_nodup p).
  - now apply is_worker_thread.
  - unfold buffers_for. lia.
  - change (buffers_for p < length (threads p)). rewrite threads_length, Fd. unfold buffers_for. rewrite Fd. fold (first_workers p).
    assert (T : total_workers p = first_workers p * length (envs p)).
    { unfold total_workers. revert Q. generalize (first_workers p). intros k Q. induction Q as [|x l A B IH]; cbn; [lia|]. unfold sum in *. rewrite IH, A. lia. }
    lia.
Qed.
Example C96_watchdog_ex : let p := mkProgram [(1, 1)] None in
  fed p = None /\ 1 <= total_watchdogs p /\ Forall (fun wd => fst wd = first_workers p) (envs p) /\ is_worker p (Worker 0 0)
  /\ run (threads p) (start (buffers_for p)) [Begin Main; Begin (Watchdog 0 0); Begin (Worker 0 0); Event (Worker 0 0) 1%Z IoOk] = OutOfBounds.
Proof.
  cbn zeta. split; [reflexivity|]. split; [cbn; lia|]. split; [constructor; [reflexivity|constructor]|].
  split; [exists 0, 0, 1, 1; split; [reflexivity|]; split; [reflexivity|lia]|vm_compute; reflexivity].
Qed.
(** Only the workers of the first environment are counted, once for each environment. *)
Theorem C96_enclaves_refuted a b : a < b ->
  let p := mkProgram [(a, 0); (b, 0)] None in total_watchdogs p = 0 /\ breaks (threads p) (buffers_for p).
Proof.
  intros H. cbn zeta. split; [reflexivity|]. apply C96_exact.
  - exists (Worker 1 0), 1, 0, b, 0. repeat split. lia.
  - cbn. lia.
Qed.
(** A program whose reaction graph has breadth zero gets no worker at all unless the user asks for one, and ends at
    once, whatever its timeout. *)
Theorem C96_breadth_refuted cores d ok : (0 < cores < 2147483648)%Z ->
  determine_number_of_workers 0 None cores (Some 0%Z) = 0%Z /\ main_actions ok (mkProgram [(0, d)] None) = [Return].
Proof.
  intros H. split; [|reflexivity]. unfold determine_number_of_workers, automatic, unsigned. cbn [Z.eqb]. rewrite (Z.mod_small cores) by lia.
  change (0 mod 4294967296)%Z with 0%Z. replace (0 <? cores)%Z with true by lia. reflexivity.
Qed.
(** If the number of cores is not known (sysconf answers -1), the number of workers is 4294967295. *)
Theorem C96_cores_refuted : determine_number_of_workers 0 None (-1) None = 4294967295%Z.
Proof. reflexivity. Qed.

(** The numbers of the workers: if no worker leaves before all have entered, every worker has its own number below
    the number of workers, and exactly the last worker to leave tells that the environment is done. *)
Theorem C96_numbers n l : history n l -> together n l ->
  map fst (taken (env_run l)) = enters l
  /\ (forall w k, In (w, k) (taken (env_run l)) -> (0 <= k < Z.of_nat n)%Z)
  /\ (forall w v k, In (w, k) (taken (env_run l)) -> In (v, k) (taken (env_run l)) -> w = v)
  /\ (length (leaves l) < n -> told (env_run l) = [])
  /\ (forall l' w, leaves l = l' ++ [w] -> length (leaves l) = n -> told (env_run l) = [w]).
Proof.
  intros H T. destruct (numbers_inv n l H T) as (A & B & C & D & F & G). rewrite A. split; [apply numbered_fst|]. split; [|split; [|split]].
  - intros w k X. destruct (in_numbered _ _ _ X) as (i & -> & Y). assert (Z0 : i < length (enters l)) by (apply nth_error_Some; congruence). lia.
  - intros w v k X Y. destruct (in_numbered _ _ _ X) as (i & -> & Z1). destruct (in_numbered _ _ _ Y) as (j & Q & Z2). apply Nat2Z.inj in Q. subst. congruence.
  - intros L. rewrite G. destruct (Nat.eqb_spec (length (leaves l)) n); [lia|reflexivity].
  - intros l' w Q L. rewrite G. replace (length (leaves l) =? n) with true by (symmetry; now apply Nat.eqb_eq). rewrite Q, rev_app_distr. reflexivity.
Qed.
Example C96_numbers_ex : let l := [Enter 1; Enter 0; Leave 1; Leave 0] in
  history 2 l /\ together 2 l /\ taken (env_run l) = [(1, 0%Z); (0, 1%Z)] /\ told (env_run l) = [0].
Proof.
  cbn zeta. assert (K : forall l1 w l2, [Enter 1; Enter 0; Leave 1; Leave 0] = l1 ++ Leave w :: l2 -> (l1 = [Enter 1; Enter 0] /\ w = 1) \/ (l1 = [Enter 1; Enter 0; Leave 1] /\ w = 0)).
  { intros l1 w l2 Q. destruct l1 as [|a1 [|a2 [|a3 [|a4 [|a5 l1]]]]]; cbn in Q; try discriminate Q; injection Q; intros; subst; auto; discriminate. }
  split; [|split; [|split; reflexivity]].
  - split; [|split; [|split]]; cbn; [repeat constructor; cbn; intuition lia|repeat constructor; cbn; intuition lia|intuition lia|].
    intros l1 w l2 Q. destruct (K _ _ _ Q) as [[-> ->]|[-> ->]]; cbn; auto.
  - intros l1 w l2 Q. destruct (K _ _ _ Q) as [[-> ->]|[-> ->]]; reflexivity.
Qed.
(** The condition is needed: a worker that begins late takes the number of one that has left. *)
Example C96_late_ex : let l := [Enter 0; Leave 0; Enter 1; Leave 1] in
  taken (env_run l) = [(0, 0%Z); (1, 0%Z)] /\ told (env_run l) = [0; 1].
Proof. split; reflexivity. Qed.

Print Assumptions C96_workers_partial.
Print Assumptions C96_once.
Print Assumptions C96_fails.
Print Assumptions C96_places_partial.
Print Assumptions C96_orders.
Print Assumptions C96_rti.
Print Assumptions C96_exact.
Print Assumptions C96_watchdog_refuted.
Print Assumptions C96_enclaves_refuted.
Print Assumptions C96_breadth_refuted.
Print Assumptions C96_cores_refuted.
Print Assumptions C96_numbers.
