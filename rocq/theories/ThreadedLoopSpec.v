(** Specification vocabulary for C67. *)
From Verif Require Import Base Tag TagSpec Pqueue Token Schedule ScheduleSpec Runtime RuntimeSpec ThreadedLoop.
Open Scope Z_scope.

(** Discipline of one operation, as for the single-threaded loop: schedule calls are in the range of C21, machine
    ranges hold when a tag is advanced. *)
Definition top_ok (nd : bool) (s : th) (o : top) : Prop :=
  match o with TAct a => act_ok nd (t_rt s) a | _ => True end /\
  (t_ph s = Run -> match o with TAct _ => True | _ => in_range (t_rt s) end) /\
  (t_ph s <> Run -> in_range (t_rt s)).
Fixpoint tops_ok (P : prog) (kp nd fast : bool) (s : th) (ops : list top) : Prop :=
  match ops with
  | [] => True
  | o :: r => top_ok nd s o /\ forall s1 l, tstep P kp nd fast s o = Ok (Go s1 l) -> tops_ok P kp nd fast s1 r
  end.
Definition tmain_ok (P : prog) (kp nd fast : bool) (e : env) (now d : Z) (ops : list top) : Prop :=
  e_q e = [] /\ NEVER < now < FOREVER /\ timers_logical e /\
  (forall tr, In tr (p_timers P) -> 0 <= tg_offset (e_tr e tr) /\ 0 <= tg_period (e_tr e tr)) /\
  forall e1 e2, init_tags e now d = Ok e1 -> init_timers e1 (p_timers P) = Ok e2 ->
    tops_ok P kp nd fast (mkTh (mkRt (start_exec e2) (fun _ => false) [] 0) Run NEVER_TAG false now) ops.

Definition trace (l : list entry) : list line := map en_line l.
