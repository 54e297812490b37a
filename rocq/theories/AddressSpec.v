(** Ports, IPv4 addresses, host names, user names and addresses of a coordinator,
    said without regular expressions. *)
From Verif Require Import Base CText ArgsSpec.
Open Scope Z_scope.

Definition is_lower (c : Z) : Prop := 97 <= c <= 122.
Definition is_upper (c : Z) : Prop := 65 <= c <= 90.
Definition is_dec (c : Z) : Prop := 48 <= c <= 57.
Definition is_alnum (c : Z) : Prop := is_lower c \/ is_dec c.

Definition port_text (s : text) (n : Z) : Prop := writes n s /\ (List.length s <= 5)%nat /\ n <= 65535.

(** One to three digits, at most 255, no three digits with a leading zero. *)
Definition octet_text (s : text) : Prop :=
  exists n, writes n s /\ n <= 255 /\ (List.length s <= 3)%nat /\ (List.length s = 3%nat -> 100 <= n).
Definition dot : Z := 46.
Definition ipv4_text (s : text) : Prop :=
  exists a b c d, octet_text a /\ octet_text b /\ octet_text c /\ octet_text d /\
    s = a ++ dot :: b ++ dot :: c ++ dot :: d.

(** Groups of letters and digits separated by single hyphens. *)
Definition group_text (s : text) : Prop := s <> [] /\ Forall is_alnum s.
Inductive label_text : text -> Prop :=
| label_one g : group_text g -> label_text g
| label_more g l : group_text g -> label_text l -> label_text (g ++ 45 :: l).
(** Labels with dots, the last of at least two letters. *)
Inductive fqn_text : text -> Prop :=
| fqn_one l t : label_text l -> (2 <= List.length t)%nat -> Forall is_lower t -> fqn_text (l ++ dot :: t)
| fqn_more l f : label_text l -> fqn_text f -> fqn_text (l ++ dot :: f).
Definition host_name (s : text) : Prop := label_text s \/ fqn_text s.

Definition user_char (c : Z) : Prop := is_alnum c \/ c = 95 \/ c = 45.
Definition user_name (s : text) : Prop :=
  exists c r, (is_lower c \/ c = 95) /\ Forall user_char r /\
    (s = c :: r /\ (List.length r <= 31)%nat \/ s = c :: r ++ [36] /\ (List.length r <= 30)%nat).

(** [user@host:port], where user and port may be missing; what the address may
    be written with. *)
Definition addr_user_char (c : Z) : Prop := is_lower c \/ is_upper c \/ is_dec c \/ c = 95 \/ c = 45.
Definition addr_host_char (c : Z) : Prop := addr_user_char c \/ c = 46.
Definition user_part (u : option text) : text := match u with Some u => u ++ [64] | None => [] end.
Definition port_part (p : option text) : text := match p with Some p => 58 :: p | None => [] end.
Definition parts_ok (u : option text) (h : text) (p : option text) : Prop :=
  (forall u', u = Some u' -> (1 <= List.length u' <= 254)%nat /\ Forall addr_user_char u') /\
  (1 <= List.length h <= 255)%nat /\ Forall addr_host_char h /\
  (forall p', p = Some p' -> (1 <= List.length p' <= 5)%nat /\ Forall is_dec p').
Definition addr_text (u : option text) (h : text) (p : option text) : text := user_part u ++ h ++ port_part p.
