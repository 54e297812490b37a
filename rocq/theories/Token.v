(** Model of core/lf_token.c: reference-counted tokens, templates, recycling bin.

    Tokens and payloads live in two heaps; a freed cell is [None] and touching it
    is [UB].  Addresses are handed out by counters, so they are never reused
    (simplification: address reuse can only matter through a dangling pointer, and
    using one is already [UB]).  The recycling bin, a hash set in C, is a list
    without duplicates (C13 relates the hash set to a set); which recycled token is
    taken is the head of the list.  The mutexes of LF_CRITICAL_SECTION make every
    function below atomic, except the reference count updates noted in DESIGN.md.
    Debug counters are left out. *)
From Verif Require Import Base Pqueue.
Open Scope Z_scope.

(** lf_token.h:86-97 [lf_token_t].  [tk_type] is the template whose type the token has. *)
Record tok := mkTok { tk_val : option nat; tk_len : Z; tk_type : nat; tk_ref : Z; tk_next : option nat }.
(** lf_token.h:114-119 [token_template_t], lf_token.h:130- [num_destinations]. *)
Record tmpl := mkTmpl { tp_tok : option nat; tp_esz : Z; tp_ndest : Z; tp_cctor : bool }.
(** Static data of lf_token.c:28-64, plus the two heaps. *)
Record tst := mkTst {
  ts_tok : nat -> option tok; ts_fresh : nat;        (* token heap *)
  ts_pay : nat -> option (list Z); ts_pfresh : nat;  (* payload heap *)
  ts_bin : list nat;                                 (* _lf_token_recycling_bin *)
  ts_list : option nat;                              (* _lf_tokens_allocated_in_reactions *)
  ts_reg : list nat;                                 (* _lf_token_templates *)
  ts_tmpl : nat -> tmpl }.

Definition set_tok s t k := mkTst (upd (ts_tok s) t k) (ts_fresh s) (ts_pay s) (ts_pfresh s) (ts_bin s) (ts_list s) (ts_reg s) (ts_tmpl s).
Definition set_pay s p d := mkTst (ts_tok s) (ts_fresh s) (upd (ts_pay s) p d) (ts_pfresh s) (ts_bin s) (ts_list s) (ts_reg s) (ts_tmpl s).
Definition set_bin s b := mkTst (ts_tok s) (ts_fresh s) (ts_pay s) (ts_pfresh s) b (ts_list s) (ts_reg s) (ts_tmpl s).
Definition set_list s l := mkTst (ts_tok s) (ts_fresh s) (ts_pay s) (ts_pfresh s) (ts_bin s) l (ts_reg s) (ts_tmpl s).
Definition set_reg s r := mkTst (ts_tok s) (ts_fresh s) (ts_pay s) (ts_pfresh s) (ts_bin s) (ts_list s) r (ts_tmpl s).
Definition set_tmpl s i m := mkTst (ts_tok s) (ts_fresh s) (ts_pay s) (ts_pfresh s) (ts_bin s) (ts_list s) (ts_reg s) (upd (ts_tmpl s) i m).
Definition tmpl_set_tok s i o := set_tmpl s i (mkTmpl o (tp_esz (ts_tmpl s i)) (tp_ndest (ts_tmpl s i)) (tp_cctor (ts_tmpl s i))).

(** lf_token.h:44-49 [token_freed] *)
Definition NOT_FREED : Z := 0.
Definition TOKEN_FREED : Z := 2.
(** lf_token.c:57 *)
Definition BIN_LIMIT : nat := 512.

(** Reading a token through a pointer. *)
Definition get_tok (s : tst) (t : nat) : res tok := match ts_tok s t with Some k => Ok k | None => UB end.
Definition with_val k v := mkTok v (tk_len k) (tk_type k) (tk_ref k) (tk_next k).
Definition with_len k l := mkTok (tk_val k) l (tk_type k) (tk_ref k) (tk_next k).
Definition with_ref k r := mkTok (tk_val k) (tk_len k) (tk_type k) r (tk_next k).
Definition with_next k n := mkTok (tk_val k) (tk_len k) (tk_type k) (tk_ref k) n.

(** malloc/calloc of a payload with the given contents (never fails: simplification). *)
Definition alloc_pay (s : tst) (d : list Z) : tst * nat :=
  (mkTst (ts_tok s) (ts_fresh s) (upd (ts_pay s) (ts_pfresh s) (Some d)) (S (ts_pfresh s)) (ts_bin s) (ts_list s) (ts_reg s) (ts_tmpl s),
   ts_pfresh s).

(** lf_token.c:140-163 [_lf_free_token_value]; destructor and free() both end the
    payload's life; freeing it twice is undefined. *)
Definition free_token_value (s : tst) (t : nat) : res tst :=
  do! k <- get_tok s t;
  match tk_val k with
  | None => Ok s
  | Some p => match ts_pay s p with
              | None => UB
              | Some _ => Ok (set_tok (set_pay s p None) t (Some (with_val k None)))
              end
  end.

Definition mem (x : nat) (l : list nat) : bool := existsb (Nat.eqb x) l.

(** lf_token.c:165-202 [_lf_free_token]; the result is [result &= TOKEN_FREED] of line 199. *)
Definition free_token (s : tst) (o : option nat) : res (tst * Z) :=
  match o with
  | None => Ok (s, NOT_FREED)
  | Some t =>
    do! k <- get_tok s t;
    if 0 <? tk_ref k then Ok (s, NOT_FREED)
    else
      do! s1 <- free_token_value s t;
      let s2 := if (length (ts_bin s1) <? BIN_LIMIT)%nat
                then if mem t (ts_bin s1) then s1 else set_bin s1 (t :: ts_bin s1)
                else set_tok s1 t None in
      Ok (s2, Z.land NOT_FREED TOKEN_FREED)
  end.

(** lf_token.c:353-364 [_lf_done_using] *)
Definition done_using (s : tst) (o : option nat) : res (tst * Z) :=
  match o with
  | None => Ok (s, NOT_FREED)
  | Some t =>
    do! k <- get_tok s t;
    if tk_ref k =? 0 then Ok (s, NOT_FREED)
    else free_token (set_tok s t (Some (with_ref k (tk_ref k - 1)))) (Some t)
  end.

(** lf_token.c:204-237 [_lf_new_token]; a recycled token keeps its [next] field. *)
Definition new_token (s : tst) (type : nat) (v : option nat) (len : Z) : res (tst * nat) :=
  match ts_bin s with
  | t :: b =>
      do! k <- get_tok s t;
      Ok (set_tok (set_bin s b) t (Some (mkTok v len type 0 (tk_next k))), t)
  | [] =>
      let t := ts_fresh s in
      Ok (mkTst (upd (ts_tok s) t (Some (mkTok v len type 0 None))) (S t) (ts_pay s) (ts_pfresh s) (ts_bin s) (ts_list s) (ts_reg s) (ts_tmpl s), t)
  end.

Definition write_tok (s : tst) (t : nat) (f : tok -> tok) : res tst :=
  do! k <- get_tok s t; Ok (set_tok s t (Some (f k))).

(** lf_token.c:239-254 [_lf_get_token] *)
Definition get_token (s : tst) (i : nat) : res (tst * nat) :=
  let fresh :=
    do! r <- new_token s i None 0;
    do! s2 <- write_tok (fst r) (snd r) (fun k => with_ref k 1);
    Ok (s2, snd r) in
  match tp_tok (ts_tmpl s i) with
  | None => fresh
  | Some t =>
      do! k <- get_tok s t;
      if tk_ref k =? 1 then do! s1 <- free_token_value s t; Ok (s1, t) else fresh
  end.

(** lf_token.c:256-280 [_lf_initialize_template] *)
Definition initialize_template (s : tst) (i : nat) (esz : Z) : res tst :=
  let s := if mem i (ts_reg s) then s else set_reg s (i :: ts_reg s) in
  let fresh (s : tst) :=
    let m := ts_tmpl s i in
    let s := set_tmpl s i (mkTmpl (tp_tok m) esz (tp_ndest m) (tp_cctor m)) in
    do! r <- new_token s i None 0;
    write_tok (tmpl_set_tok (fst r) i (Some (snd r))) (snd r) (fun k => with_ref k 1) in
  match tp_tok (ts_tmpl s i) with
  | None => fresh s
  | Some t =>
      do! k <- get_tok s t;
      if (tk_ref k =? 1) && (tp_esz (ts_tmpl s (tk_type k)) =? esz)
      then do! s1 <- free_token_value s t; write_tok s1 t (fun k => with_ref k 1)
      else do! r <- done_using s (Some t); fresh (tmpl_set_tok (fst r) i None)
  end.

(** lf_token.c:282-296 [_lf_initialize_token_with_value]; [v] is a payload. *)
Definition initialize_token_with_value (s : tst) (i : nat) (v : nat) (len : Z) : res (tst * nat) :=
  do! r <- get_token s i;
  do! s2 <- write_tok (fst r) (snd r) (fun k => with_len (with_val k (Some v)) len);
  Ok (s2, snd r).

(** lf_token.c:337-351 [_lf_replace_template_token] *)
Definition opt_eqb (a b : option nat) : bool :=
  match a, b with Some x, Some y => Nat.eqb x y | None, None => true | _, _ => false end.
Definition replace_template_token (s : tst) (i : nat) (o : option nat) : res tst :=
  if opt_eqb (tp_tok (ts_tmpl s i)) o then Ok s
  else
    do! r <- done_using s (tp_tok (ts_tmpl s i));
    do! s2 <- match o with
              | None => Ok (fst r)
              | Some t => write_tok (fst r) t (fun k => with_ref k ((tk_ref k + 1) mod two64))
              end;
    Ok (tmpl_set_tok s2 i o).

(** lf_token.c:366-371 [_lf_free_token_copies]; each round releases the head and then
    reads its [next] field.  Running out of fuel stands for not terminating. *)
Fixpoint free_token_copies (fuel : nat) (s : tst) : res tst :=
  match ts_list s with
  | None => Ok s
  | Some t =>
    match fuel with
    | O => UB
    | S f =>
      do! r <- done_using s (Some t);
      do! k <- get_tok (fst r) t;
      free_token_copies f (set_list (fst r) (tk_next k))
    end
  end.

(** lf_token.c:86-138 [_lf_writable_copy_locked] for the port whose template is [i].
    memcpy from NULL or past the end of the payload is undefined; a user copy
    constructor is taken to copy the payload. *)
Definition copy_payload (s : tst) (k : tok) : res (tst * nat) :=
  match tk_val k with
  | None => UB
  | Some p => match ts_pay s p with
              | None => UB
              | Some d => if tk_len k <=? Z.of_nat (length d)
                          then Ok (alloc_pay s (firstn (Z.to_nat (tk_len k)) d)) else UB
              end
  end.
Definition writable_copy (s : tst) (i : nat) : res (tst * option nat) :=
  let m := ts_tmpl s i in
  match tp_tok m with
  | None => Ok (s, None)
  | Some t =>
    do! k <- get_tok s t;
    if (tp_ndest m =? 1) && (tk_ref k =? 1) then Ok (s, Some t)
    else if negb (tp_cctor m) && ((tp_esz m * tk_len k) mod two64 =? 0) then Ok (s, Some t)
    else
      do! c <- copy_payload s k;
      do! r <- new_token (fst c) i (Some (snd c)) (tk_len k);
      do! s2 <- write_tok (fst r) (snd r) (fun k => with_next (with_ref k 1) (ts_list (fst r)));
      Ok (set_list s2 (Some (snd r)), Some (snd r))
  end.

(** lf_token.c:306-335 [_lf_free_all_tokens]: release every template's token, then
    free every token in the bin. *)
Fixpoint release_templates (l : list nat) (s : tst) : res tst :=
  match l with
  | [] => Ok s
  | i :: r => do! x <- done_using s (tp_tok (ts_tmpl s i)); release_templates r (tmpl_set_tok (fst x) i None)
  end.
Fixpoint free_binned (l : list nat) (s : tst) : res tst :=
  match l with
  | [] => Ok s
  | t :: r => do! k <- get_tok s t; free_binned r (set_tok s t None)
  end.
Definition free_all_tokens (s : tst) : res tst :=
  do! s1 <- release_templates (ts_reg s) s;
  do! s2 <- free_binned (ts_bin s1) s1;
  Ok (set_bin (set_reg s2 []) []).

(** ** Histories of token operations, as reactions and the runtime perform them. *)
Inductive top :=
| ONew (i : nat) (d : list Z)     (* lf_new_token on a freshly allocated payload *)
| OHold (t : nat)                 (* token->ref_count++ when scheduling: schedule.c:131, reactor_common.c:495 *)
| ODone (t : nat)                 (* _lf_done_using *)
| OSetToken (i t : nat)           (* lf_set_token, and popping an event: reactor_common.c:318 *)
| OClear (i : nat)                (* popping an event that carries no token *)
| OInit (i : nat) (esz : Z)       (* _lf_initialize_template *)
| OSet (i : nat) (d : list Z)     (* lf_set, lf_set_array: reaction_macros.h:72-110 *)
| OValue (i : nat) (d : list Z)   (* first half of lf_schedule_value, lf_schedule_copy: schedule.c:47-86 *)
| OCopy (i : nat)                 (* lf_writable_copy *)
| OEndTag.                        (* _lf_free_token_copies, at the start of a time step *)

Definition top_step (s : tst) (o : top) : res tst :=
  match o with
  | ONew i d => let (s1, p) := alloc_pay s d in do! r <- new_token s1 i (Some p) (Z.of_nat (length d)); Ok (fst r)
  | OHold t => write_tok s t (fun k => with_ref k ((tk_ref k + 1) mod two64))
  | ODone t => do! r <- done_using s (Some t); Ok (fst r)
  | OSetToken i t => replace_template_token s i (Some t)
  | OClear i => replace_template_token s i None
  | OInit i esz => initialize_template s i esz
  | OSet i d => let (s1, p) := alloc_pay s d in
                do! r <- initialize_token_with_value s1 i p (Z.of_nat (length d));
                Ok (tmpl_set_tok (fst r) i (Some (snd r)))
  | OValue i d => let (s1, p) := alloc_pay s d in
                  do! r <- initialize_token_with_value s1 i p (Z.of_nat (length d)); Ok (fst r)
  | OCopy i => do! r <- writable_copy s i; Ok (fst r)
  | OEndTag => free_token_copies (ts_fresh s) s
  end.
Fixpoint top_run (s : tst) (os : list top) : res tst :=
  match os with [] => Ok s | o :: r => do! s1 <- top_step s o; top_run s1 r end.

(** Program start: no token exists; templates have their static configuration. *)
Definition tst_init (cfg : nat -> tmpl) : tst :=
  mkTst (fun _ => None) 0 (fun _ => None) 0 [] None [] (fun i => mkTmpl None (tp_esz (cfg i)) (tp_ndest (cfg i)) (tp_cctor (cfg i))).
