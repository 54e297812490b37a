(** POSIX extended regular expressions as far as core/federated/network/net_util.c
    uses them, and a matcher by derivatives (the C library's regexec is not part
    of the project; the matcher is proved correct in [RegexProofs]). *)
From Verif Require Import Base CText.
Open Scope Z_scope.

Inductive regex :=
| Empty                                  (* no string *)
| Eps                                    (* the empty string *)
| Class (ranges : list (Z * Z))          (* [a-z0-9] *)
| Cat (a b : regex)
| Alt (a b : regex)
| Star (a : regex).

Definition in_class (l : list (Z * Z)) (c : Z) : bool :=
  existsb (fun r => (fst r <=? c) && (c <=? snd r)) l.
Definition Plus (a : regex) : regex := Cat a (Star a).
Definition Opt (a : regex) : regex := Alt Eps a.                (* a{0,1} *)
Fixpoint Times (n : nat) (a : regex) : regex :=                 (* a{n,n} *)
  match n with O => Eps | S n => Cat a (Times n a) end.
Fixpoint UpTo (n : nat) (a : regex) : regex :=                  (* a{0,n} *)
  match n with O => Eps | S n => Alt Eps (Cat a (UpTo n a)) end.

Fixpoint nullable (r : regex) : bool :=
  match r with
  | Empty => false | Eps => true | Class _ => false
  | Cat a b => nullable a && nullable b
  | Alt a b => nullable a || nullable b
  | Star _ => true
  end.
Fixpoint deriv (c : Z) (r : regex) : regex :=
  match r with
  | Empty => Empty | Eps => Empty
  | Class l => if in_class l c then Eps else Empty
  | Cat a b => if nullable a then Alt (Cat (deriv c a) b) (deriv c b) else Cat (deriv c a) b
  | Alt a b => Alt (deriv c a) (deriv c b)
  | Star a => Cat (deriv c a) (Star a)
  end.
Fixpoint matches (r : regex) (s : text) : bool :=
  match s with [] => nullable r | c :: s => matches (deriv c r) s end.
(** Some prefix of the text matches. *)
Fixpoint matches_prefix (r : regex) (s : text) : bool :=
  nullable r || match s with [] => false | c :: s => matches_prefix (deriv c r) s end.

(** One branch of the outermost alternation, with its anchors; a pattern is a
    list of branches ('|' has the lowest precedence, so ^A|B$ is (^A)|(B$)). *)
Record branch := mkBranch { from_start : bool; body : regex; to_end : bool }.
Definition match_here (b : branch) (s : text) : bool :=
  if to_end b then matches (body b) s else matches_prefix (body b) s.
Fixpoint match_later (b : branch) (s : text) : bool :=
  match_here b s || match s with [] => false | _ :: s => match_later b s end.
Definition match_branch (b : branch) (s : text) : bool :=
  if from_start b then match_here b s else match_later b s.
(** net_util.c:448-464 [match_regex]: regexec finds a match anywhere. *)
Definition match_regex (p : list branch) (s : text) : bool := existsb (fun b => match_branch b s) p.
