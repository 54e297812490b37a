(** Model of the treatment of the address of the coordinator given on the command
    line: core/federated/network/net_util.c:466-558, core/federated/federate.c:2279-2311
    and 1893-1913. *)
From Verif Require Import Base CText Regex.
From Coq Require Import String.
Open Scope Z_scope.

(** isdigit on a char: the argument must be representable as unsigned char, so a
    byte above 127 (negative as a plain char) is undefined, C17 7.4 (1). *)
Definition c_isdigit (c : Z) : res bool := if c <? 128 then Ok (is_digit c) else UB.
Fixpoint all_digits (s : text) : res bool :=
  match s with
  | [] => Ok true
  | c :: r => do! b <- c_isdigit c; if b then all_digits r else Ok false
  end.
(** net_util.c:466-480 [validate_port] *)
Definition validate_port (port : text) : res bool :=
  let len := Nat.min (List.length port) 6 in         (* strnlen(port, 6) *)
  if (len <? 1)%nat || (5 <? len)%nat then Ok false
  else
    do! b <- all_digits (firstn len port);
    if b then do! n <- atoi port; Ok ((0 <=? n) && (n <=? 65535)) else Ok false.

(** Character classes of the expressions: [0-9], [a-z], [a-z0-9], ... *)
Definition chr (c : Z) : regex := Class [(c, c)].
Definition digit_ : regex := Class [(48, 57)].
Definition alnum : list (Z * Z) := [(97, 122); (48, 57)].
(** 25[0-5]|(2[0-4]|1{0,1}[0-9]){0,1}[0-9] *)
Definition octet : regex :=
  Alt (Cat (chr 50) (Cat (chr 53) (Class [(48, 53)])))
      (Cat (Opt (Alt (Cat (chr 50) (Class [(48, 52)])) (Cat (Opt (chr 49)) digit_))) digit_).
(** net_util.c:484: (octet\.){3,3}octet *)
Definition ipv4 : regex := Cat (Times 3 (Cat octet (chr 46))) octet.
(** net_util.c:485: ^([a-z0-9]+(-[a-z0-9]+)* )|(([a-z0-9]+(-[a-z0-9]+)*\.)+[a-z]{2,})$ *)
Definition label_ : regex := Cat (Plus (Class alnum)) (Star (Cat (chr 45) (Plus (Class alnum)))).
Definition lower : list (Z * Z) := [(97, 122)].
Definition fqn_ : regex :=
  Cat (Plus (Cat label_ (chr 46))) (Cat (Class lower) (Plus (Class lower))).
(** net_util.c:482-487 [validate_host] *)
Definition validate_host (host : text) : bool :=
  match_regex [mkBranch false ipv4 false] host ||
  match_regex [mkBranch true label_ false; mkBranch false fqn_ true] host.

(** net_util.c:489-493 [validate_user]: ^[a-z_]([a-z0-9_-]{0,31}|[a-z0-9_-]{0,30}\$)$ *)
Definition user_class : list (Z * Z) := [(97, 122); (48, 57); (95, 95); (45, 45)].
Definition user_ : regex :=
  Cat (Class [(97, 122); (95, 95)])
      (Alt (UpTo 31 (Class user_class)) (Cat (UpTo 30 (Class user_class)) (chr 36))).
Definition validate_user (user : text) : bool := match_regex [mkBranch true user_ true] user.

(** net_util.c:522-558 [extract_rti_addr_info] with the expression
      (([a-zA-Z0-9_-]{1,254})@)?([a-zA-Z0-9._-]{1,255})(:([0-9]{1,5}))?
    which is not anchored.  regexec takes the leftmost match, and the longest of
    those; this is computed here directly (that it is leftmost and longest is
    proved as C49_extract). *)
Definition addr_user_class : list (Z * Z) := [(97, 122); (65, 90); (48, 57); (95, 95); (45, 45)].
Definition addr_host_class : list (Z * Z) := [(97, 122); (65, 90); (48, 57); (46, 46); (95, 95); (45, 45)].
Definition digit_class : list (Z * Z) := [(48, 57)].
(** The characters at the front that are in the class, at most [n]. *)
Fixpoint span (n : nat) (l : list (Z * Z)) (s : text) : text * text :=
  match n, s with
  | S n, c :: r => if in_class l c then let '(a, b) := span n l r in (c :: a, b) else ([], s)
  | _, _ => ([], s)
  end.
Fixpoint skip_to (l : list (Z * Z)) (s : text) : text :=
  match s with [] => [] | c :: r => if in_class l c then s else skip_to l r end.

Record addr := mkAddr { a_user : option text; a_host : text; a_port : option text }.
Definition extract_user (s : text) : option text * text :=
  match span 254 addr_user_class s with
  | ((_ :: _) as u, 64 :: r) =>
      match r with c :: _ => if in_class addr_host_class c then (Some u, r) else (None, s) | [] => (None, s) end
  | _ => (None, s)
  end.
Definition extract_at (s : text) : option (addr * text) :=
  let '(user, s1) := extract_user s in
  match span 255 addr_host_class s1 with
  | ([], _) => None
  | (h, s2) =>
      let '(port, s3) :=
        match s2 with
        | 58 :: r => match span 5 digit_class r with ([], _) => (None, s2) | (p, t) => (Some p, t) end
        | _ => (None, s2)
        end in
      Some (mkAddr user h port, s3)
  end.
Definition extract (s : text) : option addr :=
  match extract_at (skip_to addr_host_class s) with Some (a, _) => Some a | None => None end.

(** federate.c:2279-2311 [lf_parse_rti_addr].  The metadata of a failed parse are
    those set before the failure. *)
Inductive parse_code := SUCCESS | INVALID_PORT | INVALID_HOST | INVALID_USER | FAILED_TO_PARSE.
Record metadata := mkMeta { rti_host : option text; rti_port : Z; rti_user : option text }.
Definition metadata0 : metadata := mkMeta None (-1) None.      (* federate.c:94-95 *)

Definition parse_rti_addr (s : text) (m : metadata) : res (parse_code * metadata) :=
  match extract s with
  | None => Ok (FAILED_TO_PARSE, m)
  | Some a =>
      if negb (validate_host (a_host a)) then Ok (INVALID_HOST, m)
      else
        let m := mkMeta (Some (a_host a)) (rti_port m) (rti_user m) in
        do! pm <- match a_port a with
                  | None => Ok (Some m)
                  | Some p => do! b <- validate_port p;
                      if b then do! n <- atoi p; Ok (Some (mkMeta (rti_host m) n (rti_user m))) else Ok None
                  end;
        match pm with
        | None => Ok (INVALID_PORT, m)
        | Some m =>
            match a_user a with
            | None => Ok (SUCCESS, m)
            | Some u => if validate_user u then Ok (SUCCESS, mkMeta (rti_host m) (rti_port m) (Some u)) else Ok (INVALID_USER, m)
            end
        end
  end.

(** net_common.h: DEFAULT_PORT *)
Definition DEFAULT_PORT : Z := 15045.
(** federate.c:1897-1913 in [lf_connect_to_rti]: the first port that is tried. *)
Definition connect_port (m : metadata) (given : Z) : Z :=
  let port := if 0 <=? rti_port m then rti_port m else given in
  let uport := if (port <? 0) || (32767 <? port) then DEFAULT_PORT else port in
  if uport =? 0 then DEFAULT_PORT else uport.
