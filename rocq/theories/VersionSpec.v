(** When a plugin belongs to a program (C101). *)
From Verif Require Import Base Version.
Open Scope Z_scope.

(** Whether a plugin that says [t] about something can be used where it is [b]. *)
Definition suits (t : tribool) (b : bool) : Prop := t = TDoesNotMatter \/ t = (if b then TTrue else TFalse).
Definition threads_suit (p : build) (v : version) : Prop := suits (v_single_threaded v) (b_single_threaded p).
Definition type_suits (p : build) (v : version) : Prop := suits (v_debug v) (negb (b_ndebug p)).
Definition level_suits (p : build) (v : version) : Prop := v_log_level v = b_log_level p \/ v_log_level v = INT_MAX.
Definition belongs (p : build) (v : version) : Prop := threads_suit p v /\ type_suits p v /\ level_suits p v.
(** A complaint is right if it names what the program is and the plugin is not. *)
Definition right_complaint (p : build) (v : version) (c : complaint) : Prop :=
  match c with
  | ExpectedSingle => b_single_threaded p = true /\ ~ threads_suit p v
  | ExpectedMulti => b_single_threaded p = false /\ ~ threads_suit p v
  | ExpectedRelease => b_ndebug p = true /\ ~ type_suits p v
  | ExpectedDebug => b_ndebug p = false /\ ~ type_suits p v
  | ExpectedLevel l => l = b_log_level p /\ ~ level_suits p v
  end.
