(** Reactions of modes to startup, reset and shutdown: when they are due. *)
From Verif Require Import Base Tag TagSpec Modes ModesSpec ModeReactions.

(** What happens at one tag: the modes that are entered right before it, the current modes
    at the tag, the reactions that startup, reset and shutdown trigger, and whether it is the
    last tag. *)
Record round := mkRound {
  r_tag : tag;
  r_entries : list (mode * change);
  r_cur : nat -> mode;
  r_queue : list nat;
  r_last : bool }.

Definition entries (l : list event) : list (mode * change) :=
  flat_map (fun e => match e with Entered m c _ => [(m, c)] | _ => [] end) l.
Definition round_of (s : mstate) (l : list event) : round := mkRound (now (base s)) (entries l) (cur (base s)) (queued s) (at_stop s).

(** Executions with the list of their rounds, the newest round first. *)
Inductive mexec (p : program) (x : reactions) (t0 : Z) (st : tag) : mstate -> list round -> Prop :=
| mx_start : mexec p x t0 st (minit p x t0 st) [round_of (minit p x t0 st) []]
| mx_within s h o s' l : mexec p x t0 st s h -> allowed p (base s) o -> (forall t, o <> Advance t) -> mstep p x s (Do o) = Some (s', l) -> mexec p x t0 st s' h
| mx_stop s h t s' l : mexec p x t0 st s h -> tag_lt (now (base s)) t -> mstep p x s (Stop t) = Some (s', l) -> mexec p x t0 st s' h
| mx_round s h t s' l : mexec p x t0 st s h -> allowed p (base s) (Advance t) -> mstep p x s (Do (Advance t)) = Some (s', l) -> mexec p x t0 st s' (round_of s' l :: h).

Section Due.
Variable p : program.

Definition active_in (r : round) (m : mode) : Prop := Active p (r_cur r) m.
Definition was_active (h : list round) (m : mode) : Prop := exists r, In r h /\ active_in r m.
Definition enters (r : round) (m : mode) (c : change) : Prop := In (m, c) (r_entries r).

(** The mode has been entered by a transition or was active when the program seen. *)
Definition begun (h : list round) (m : mode) : Prop :=
  (exists r c, In r h /\ enters r m c) \/ (exists h' r, h = h' ++ [r] /\ active_in r m).
(** It was active then or later. *)
Definition seen (h : list round) (m : mode) : Prop :=
  exists h1 r h2, h = h1 ++ r :: h2 /\ active_in r m /\ begun (r :: h2) m.

(** The newest round of [r :: h] is the first one in which the mode is active. *)
Definition first_active (r : round) (h : list round) (m : mode) : Prop := active_in r m /\ ~ was_active h m.
(** ... after it was entered *)
Definition startup_due (r : round) (h : list round) (m : mode) : Prop := active_in r m /\ begun (r :: h) m /\ ~ seen h m.
(** The mode is active for the first time since it was entered, and that was by a reset. *)
Definition reset_due (r : round) (h : list round) (m : mode) : Prop :=
  active_in r m /\ exists h1 r1 h2, r :: h = h1 ++ r1 :: h2 /\ enters r1 m Reset /\
    (forall r' c, In r' h1 -> ~ enters r' m c) /\ (forall r', In r' (tl (h1 ++ [r1])) -> ~ active_in r' m).
(** At the last tag; if this is the first one, too, the start of the program comes first. *)
Definition shutdown_due (r : round) (h : list round) (m : mode) : Prop :=
  r_last r = true /\ (seen h m \/ h = [] /\ active_in r m).

(** When startup, reset or shutdown trigger the reaction [y] in the newest round of [r :: h].
    Reactions outside of modes react to startup at the first tag and to shutdown at the last tag. *)
Definition due (x : reactions) (r : round) (h : list round) (y : nat) : Prop :=
  In y (startups x) /\ match rmode x y with Some m => startup_due r h m | None => h = [] end \/
  In y (resets x) /\ match rmode x y with Some m => reset_due r h m | None => False end \/
  In y (shutdowns x) /\ match rmode x y with Some m => shutdown_due r h m | None => r_last r = true end.
End Due.

(** Generated code: the mode of a reaction belongs to one of the modal reactors. *)
Definition reactions_ok (p : program) (x : reactions) : Prop := forall y m, rmode x y = Some m -> (owner p m < size p)%nat.
