(** The specification of the order of grants. *)
From Verif Require Import Base Tag TagSpec Rti.

(** [grants_ordered strict l]: in the log [l], every TAG is after the previous TAGs (if [strict]) and not before the
    previous PTAGs; every PTAG is after the previous PTAGs, and after the previous TAGs (if [strict]). *)
Definition later_ok (strict : bool) (m m' : rmsg) : Prop :=
  match m, m' with
  | MTag t, MTag t' => strict = true -> tag_lt t t'
  | MPtag t, MTag t' => tag_le t t'
  | MTag t, MPtag t' => strict = true -> tag_lt t t'
  | MPtag t, MPtag t' => tag_lt t t'
  | _, _ => True
  end.
Definition grants_ordered (strict : bool) (l : list rmsg) : Prop :=
  forall l1 m l2, l = l1 ++ m :: l2 -> forall m', In m' l1 -> later_ok strict m' m.
