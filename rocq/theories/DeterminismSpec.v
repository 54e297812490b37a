(** Specification vocabulary for C63. *)
From Verif Require Import Base SchedSpec Determinism.

(** [within r w t b]: the body reads only locations of [r] and [w], writes only those of [w] and
    triggers only reactions in [t]. *)
Inductive within (r w : loc -> bool) (t : reaction -> Prop) : body -> Prop :=
| within_ret : within r w t Ret
| within_read x k : r x = true \/ w x = true -> (forall v, within r w t (k v)) -> within r w t (Read x k)
| within_write x v k : w x = true -> within r w t k -> within r w t (Write x v k)
| within_trig q k : t q -> within r w t k -> within r w t (Trig q k).

(** Two reactions touch a common location that one of them writes. *)
Definition conflict (reads writes : reaction -> loc -> bool) (q r : reaction) : Prop :=
  exists x, (writes q x = true /\ (reads r x = true \/ writes r x = true)) \/ (writes r x = true /\ (reads q x = true \/ writes q x = true)).

(** What the levels of a program are for: reactions of one level have nothing in common, and
    reactions trigger reactions of higher levels. *)
Record levelled_program (lvl : reaction -> nat) (prog : reaction -> body) (reads writes : reaction -> loc -> bool) : Prop := {
  lp_body : forall r, within (reads r) (writes r) (fun q => (lvl r < lvl q)%nat) (prog r);
  lp_apart : forall q r, q <> r -> lvl q = lvl r -> ~ conflict reads writes q r }.

(** What happens between tags depends on the contents of the memory. *)
Definition extensional (boundary : memory -> list reaction * memory) : Prop :=
  forall m m', (forall x, m x = m' x) -> fst (boundary m) = fst (boundary m') /\ forall x, snd (boundary m) x = snd (boundary m') x.

(** The results of a tag are the same: the same reactions were executed, once each, and the memory is the same. *)
Definition same_result (a b : tag_result) : Prop :=
  NoDup (fst a) /\ NoDup (fst b) /\ (forall r, In r (fst a) <-> In r (fst b)) /\ (forall x, snd a x = snd b x).
(** Two histories agree as far as both go. *)
Definition same_history (h h' : list tag_result) : Prop :=
  forall k a b, nth_error h k = Some a -> nth_error h' k = Some b -> same_result a b.

(** ** The executions of a program by the worker threads *)
From Verif Require SchedNP SchedAdaptive SchedGEDF SchedGEDFSpec.

(** The program [rs] starts with the reactions [ts] triggered.  Which scheduler is compiled in,
    the number of workers, and the interleaving are arbitrary.  With the deadline scheduler
    deadlines have been inherited: a reaction is more urgent than those it triggers, and
    than those of higher levels it has a conflict with. *)
Inductive execution (top : nat) (lvl : reaction -> nat) (reads writes : reaction -> loc -> bool) (rs ts : list reaction) : list event -> Prop :=
| by_NP n s0 s es : program_ok n top lvl rs -> SchedNP.init top lvl (reactions_at lvl rs) ts = Some s0 ->
    SchedNP.exec n top lvl (reactions_at lvl rs) rs s0 s es -> execution top lvl reads writes rs ts es
| by_adaptive n hash s0 s es : program_ok n top lvl rs -> SchedAdaptive.init n top lvl (reactions_at lvl rs) hash ts = Some s0 ->
    SchedAdaptive.exec false n top lvl (reactions_at lvl rs) hash false rs s0 s es -> execution top lvl reads writes rs ts es
| by_GEDF n prio may s es : program_ok n top lvl rs -> SchedGEDFSpec.levelled top lvl may -> SchedGEDFSpec.inherits prio may ->
    (forall q r, conflict reads writes q r -> (lvl q < lvl r)%nat -> (prio q < prio r)%Z) ->
    SchedGEDF.exec n top prio lvl may (SchedGEDF.init ts) s es -> execution top lvl reads writes rs ts es.
