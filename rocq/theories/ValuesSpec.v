(** Specification vocabulary for C65. *)
From Verif Require Import Base Tag TagSpec Pqueue Token TokenSpec Schedule ScheduleSpec Runtime RuntimeSpec Values.
Open Scope Z_scope.

(** An event of action [tr] with tag [t] and value [d] is pending. *)
Definition carries (s : rt) (v : event) (d : list Z) : Prop := exists k, ev_tok v = Some k /\ contents (e_tok (r_env s)) k = Some d.
Definition pending (s : rt) (tr : nat) (t : tag) (d : list Z) : Prop :=
  exists v, In v (e_q (r_env s)) /\ ev_trig v = Some tr /\ ev_tag v = t /\ carries s v d.
(** What a reaction reads from the action (or port) [tr]. *)
Definition value_of (s : rt) (tr : nat) : option (list Z) :=
  match tp_tok (ts_tmpl (e_tok (r_env s)) tr) with Some k => contents (e_tok (r_env s)) k | None => None end.
(** At most one event of [tr] is pending for [t] (C23 gives conditions). *)
Definition alone (s : rt) (tr : nat) (t : tag) : Prop :=
  forall a v b w c, e_q (r_env s) = a ++ v :: b ++ w :: c -> key v = (Some tr, t) -> key w = (Some tr, t) -> False.

(** The calls that schedule [tr] with the value [d]. *)
Definition schedules (o : vop) (now : Z) (tr : nat) (extra : Z) (d : list Z) : Prop :=
  o = VValue now tr extra d \/ (exists v, o = VInt now tr extra v /\ d = [v]) \/ o = VCopy now tr extra (Some d).

(** Start: no token exists yet, pending events (timers) carry no value. *)
Definition vstart (cfg : nat -> tmpl) (s : rt) : Prop :=
  sound s /\ timers_logical (r_env s) /\ e_tok (r_env s) = tst_init cfg /\ forall v, In v (e_q (r_env s)) -> ev_tok v = None.

(** Discipline.  Reference counts do not overflow; schedule calls are in the range of C21 and the action's
    template is initialised; a token that is passed to the runtime is one that has not been given back;
    the recycling bin has room for the copies made at this tag (C19). *)
Definition counts_ok (s : tst) : Prop := forall t k, ts_tok s t = Some k -> tk_ref k + 1 < two64.
Definition passed (s : rt) (tr : nat) (tok : option nat) : Prop :=
  match tok with Some t => usable (e_tok (r_env s)) t /\ In tr (ts_reg (e_tok (r_env s))) | None => True end.
Definition vop_ok (nd : bool) (s : rt) (o : vop) : Prop :=
  let e := r_env s in
  counts_ok (e_tok e) /\
  match o with
  | VAct a => act_ok nd s a /\ match a with ASched _ tr _ tok => passed s tr tok | _ => True end
  | VValue now tr extra _ | VInt now tr extra _ => sched_ok nd now e tr extra /\ In tr (ts_reg (e_tok e))
  | VCopy now tr extra _ => sched_ok nd now e tr extra /\ In tr (ts_reg (e_tok e))
  | VMsg tr t tok => passed s tr tok /\ tag_ok t /\ tmicro t < UINT_MAX
  | VTok o =>
      match o with
      | ONew _ _ | OInit _ _ => True
      | OSetToken i t => In i (ts_reg (e_tok e)) /\ usable (e_tok e) t
      | OClear i | OSet i _ => In i (ts_reg (e_tok e))
      | OCopy i => match tp_tok (ts_tmpl (e_tok e) i) with Some t => contents (e_tok e) t <> None | None => True end
      | OHold _ | ODone _ | OValue _ _ | OEndTag => False
      end
  | VIdle => tmicro (e_cur e) < UINT_MAX
  | VTag now => tag_lt (e_cur e) (e_stop e) /\ in_range s /\ (length (ts_bin (e_tok e)) + length (copies_of (e_tok e)) <= BIN_LIMIT)%nat
  end.
Fixpoint vok_run (P : prog) (kp nd : bool) (s : rt) (os : list vop) : Prop :=
  match os with
  | [] => True
  | o :: r => vop_ok nd s o /\ forall s1, vstep P kp nd s o = Ok s1 -> vok_run P kp nd s1 r
  end.

(** Operations that give the template of [tr] another value. *)
Definition touches (o : vop) (tr : nat) : Prop :=
  match o with
  | VTag _ => True
  | VValue _ i _ _ | VInt _ i _ _ | VCopy _ i _ (Some _) => i = tr
  | VTok (OSetToken i _) | VTok (OClear i) | VTok (OInit i _) | VTok (OSet i _) => i = tr
  | _ => False
  end.
