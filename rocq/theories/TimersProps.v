(** C64: timers fire exactly when they should. *)
From Verif Require Import Base Tag TagSpec TagProofs Pqueue PqueueProofs Token TokenProofs Schedule ScheduleSpec ScheduleProofs Runtime RuntimeSpec RuntimeProofs Timers TimersSpec TimersProofs.
From Coq Require Import Arith.
Open Scope Z_scope.

(** In every execution, at every tag after the start tag, the timer fires exactly once if the tag is one of
    start + offset + k * period (microstep 0), and not at all otherwise ... *)
Theorem C64_fires_exactly_when_due : forall P kp nd e start duration l0 steps s x0 rest b tr,
  main_ok P kp nd e start duration l0 steps -> NoDup (p_timers P) -> In tr (p_timers P) -> tg_timer (e_tr e tr) = true ->
  Forall (leaves_alone tr) l0 -> Forall (turn_leaves_alone tr) steps ->
  main P kp nd e start duration l0 steps = Ok (Some (s, x0 :: rest, b)) ->
  forall x, In x rest ->
    (due start (tg_offset (e_tr e tr)) (tg_period (e_tr e tr)) (l_tag x) /\ exists v, firings tr x = [v]) \/
    (~ due start (tg_offset (e_tr e tr)) (tg_period (e_tr e tr)) (l_tag x) /\ firings tr x = []).
Proof.
  intros P kp nd e start duration l0 steps s x0 rest b tr Hok ND Hin Ht A0 A1 H x Hx.
  destruct (main_timer _ _ _ _ _ _ _ _ _ _ _ _ Hok ND Hin Ht A0 A1 H) as (y0 & r & E & _ & C & _). injection E as <- <-. exact (C x Hx).
Qed.
Print Assumptions C64_fires_exactly_when_due.

(** ... and no such tag is skipped: up to the tag the execution has reached (its stop tag, if it has ended),
    each of them has been entered. *)
Theorem C64_no_due_tag_skipped : forall P kp nd e start duration l0 steps s x0 rest b tr,
  main_ok P kp nd e start duration l0 steps -> NoDup (p_timers P) -> In tr (p_timers P) -> tg_timer (e_tr e tr) = true ->
  Forall (leaves_alone tr) l0 -> Forall (turn_leaves_alone tr) steps ->
  main P kp nd e start duration l0 steps = Ok (Some (s, x0 :: rest, b)) ->
  forall t, due start (tg_offset (e_tr e tr)) (tg_period (e_tr e tr)) t -> tag_lt (mkTag start 0) t -> tag_le t (e_cur (r_env s)) ->
  exists x v, In x rest /\ l_tag x = t /\ firings tr x = [v].
Proof.
  intros P kp nd e start duration l0 steps s x0 rest b tr Hok ND Hin Ht A0 A1 H t D L1 L2.
  destruct (main_timer _ _ _ _ _ _ _ _ _ _ _ _ Hok ND Hin Ht A0 A1 H) as (y0 & r & E & _ & C1 & C2). injection E as <- <-.
  destruct (C2 t D L1 L2) as (x & Hx & <-). destruct (C1 x Hx) as [(_ & v & F)|(N & _)]; [exists x, v; auto|contradiction].
Qed.
Print Assumptions C64_no_due_tag_skipped.

(** At the start tag the reactions of a timer are triggered directly, exactly if that tag is due. *)
Theorem C64_at_start : forall e l start tr, tag_ok (mkTag start 0) -> start < FOREVER -> 0 <= tg_offset (e_tr e tr) -> 0 <= tg_period (e_tr e tr) ->
  (In tr (timers_at_start e l) <-> In tr l /\ due start (tg_offset (e_tr e tr)) (tg_period (e_tr e tr)) (mkTag start 0)).
Proof.
  intros e l start tr Hok Hs Ho Hp. unfold timers_at_start. rewrite filter_In, Z.eqb_eq. split; intros (A & B); (split; [exact A|]).
  - exists 0. rewrite B. split; [lia|]. split; [reflexivity|]. split; [lia|]. f_equal. lia.
  - destruct B as (k & K1 & K2 & K3 & K4). injection K4 as K4. pose proof (Z.mul_nonneg_nonneg k _ K1 Hp). lia.
Qed.
Print Assumptions C64_at_start.

(** *** Example: trigger 0 is a timer of period 10 and offset 0, trigger 1 an action, trigger 3 a timer of
    offset 5 that fires once; the duration is 25, so the firing at 130 is not
    queued and the execution ends when no event is left. *)
Definition ex_prog : prog := mkProg [1]%nat (fun tr => tr) [0; 3]%nat.
Definition ex_trigs (n : nat) : trig := match n with O => mkTrig true false 0 10 PDefer NEVER_TAG | 3%nat => mkTrig true false 5 0 PDefer NEVER_TAG | _ => mkTrig false false 0 0 PDefer NEVER_TAG end.
Definition ex_env : env := mkEnv NEVER_TAG NEVER_TAG [] ex_trigs 1 (tst_init (fun _ => mkTmpl None 4 1 false)) false.
Definition ex_l0 : list uact := [ASched 100 1 10 None].
Definition ex_steps : list turn := [TStep 105 [ASched 106 1 0 None]; TStep 106 []; TIntr [ASched 107 1 10 None]; TStep 110 []; TStep 115 []; TStep 120 []; TStep 125 []].
Example C64_ex : main_ok ex_prog false false ex_env 100 25 ex_l0 ex_steps /\ NoDup (p_timers ex_prog) /\
  (forall tr, In tr (p_timers ex_prog) -> tg_timer (e_tr ex_env tr) = true /\ Forall (leaves_alone tr) ex_l0 /\ Forall (turn_leaves_alone tr) ex_steps) /\
  timers_at_start ex_env (p_timers ex_prog) = [0%nat] /\
  match main ex_prog false false ex_env 100 25 ex_l0 ex_steps with
  | Ok (Some (s, tr, b)) => Some (map (fun x => (l_tag x, map ev_trig (l_events x), l_down x)) tr, b)
  | _ => None
  end = Some ([(mkTag 100 0, [], false); (mkTag 105 0, [Some 3%nat], false); (mkTag 105 1, [Some 1%nat], false); (mkTag 110 0, [Some 1%nat; Some 0%nat], false);
               (mkTag 115 0, [Some 1%nat], false); (mkTag 120 0, [Some 0%nat], false); (mkTag 120 1, [], true)], false).
Proof.
  split; [|split; [|split; [|split; [reflexivity|vm_compute; reflexivity]]]].
  - split; [reflexivity|]. split; [unfold NEVER, FOREVER, LLONG_MIN, LLONG_MAX; lia|].
    split; [intros [|[|[|[|n]]]]; reflexivity|]. split; [intros tr [<-|[<-|[]]]; cbn; lia|].
    intros e1 e2 H1 H2. vm_compute in H1. injection H1 as <-. vm_compute in H2. injection H2 as <-. cbv zeta. split; [apply acts_okb_ok; vm_compute; reflexivity|].
    intros s H. apply loop_okb_ok. revert H. match goal with |- acts ?P ?nd ?s0 ?l = Ok s -> loop_okb ?P ?kp ?nd s ?steps = true =>
      assert (K : match acts P nd s0 l with Ok s1 => loop_okb P kp nd s1 steps | UB => true end = true) by (vm_compute; reflexivity); intros H; rewrite H in K; exact K end.
  - repeat constructor; cbn; intuition discriminate.
  - intros tr [<-|[<-|[]]]; (split; [reflexivity|]); split; repeat constructor; discriminate.
Qed.
