(** The timers that trigger their reactions at the start tag: core/reactor_common.c:372-377, in
    [_lf_initialize_timer] ([init_timer] of Runtime.v is the rest of this function). *)
From Verif Require Import Base Tag Schedule Runtime.
Open Scope Z_scope.
Definition timers_at_start (e : env) (l : list nat) : list nat := filter (fun tr => tg_offset (e_tr e tr) =? 0) l.
