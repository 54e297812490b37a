(** Specification of the promises of a federate with physical actions. *)
From Verif Require Import Base Tag TagSpec PhysicalNet.

(** Every output that does not go back to a message satisfies [r t] for every tag [t]
    announced before it ([log]: last first). *)
Definition promises (r : tag -> tag -> Prop) (log : list sent) : Prop :=
  forall after before g t, log = after ++ SOut g true :: before -> In (SNet t) before -> r t g.
Definition not_earlier (t g : tag) : Prop := tag_le t g.
Definition same_time_or_later (t g : tag) : Prop := ttime t <= ttime g.
Definition no_message (o : op) : Prop := match o with Message _ => False | _ => True end.
(** Physical time passes, actions are scheduled, messages arrive. *)
Definition environment (o : op) : Prop := match o with Tick _ | Action _ _ _ | Message _ => True | _ => False end.
Definition ticks (o : op) : Prop := match o with Tick _ => True | _ => False end.
Definition earlier (a b : tag) : tag := if tag_compare b a <? 0 then b else a.
(** At the start: events with a slack that is not negative, in the first microstep of their time. *)
Definition fresh (q : list event) : Prop := Forall (fun e => 0 <= e_slack e /\ tmicro (e_tag e) = 0) q.
(** The physical clock has not come near the end of its range. *)
Definition clock_ok (c : config) (s : fed) : Prop := f_now s + c_min c + c_interval c < LLONG_MAX.
