(** Specification: UTF-8 (RFC 3629), LIKE and the string functions on code points. *)
From Verif Require Import Base.
Local Open Scope Z_scope.

(** RFC 3629, section 3: the bytes of a code point *)
Definition utf8 (c : Z) : list Z :=
  if c <? 128 then [c]
  else if c <? 2048 then [192 + c / 64; 128 + c mod 64]
  else if c <? 65536 then [224 + c / 4096; 128 + c / 64 mod 64; 128 + c mod 64]
  else [240 + c / 262144; 128 + c / 4096 mod 64; 128 + c / 64 mod 64; 128 + c mod 64].
(** the code points of Unicode that have an encoding: no surrogates, at most 10FFFF *)
Definition scalar (c : Z) : Prop := 0 <= c <= 1114111 /\ ~ (55296 <= c <= 57343).
(** what four bytes can hold *)
Definition code (c : Z) : Prop := 0 <= c < 2097152.
Definition text (l : list Z) : list Z := flat_map utf8 l.

(** ** LIKE *)
Inductive tok := Any | One | Char (c : Z).
(** backslash makes the next character literal; a single backslash at the end is no pattern *)
Fixpoint tokens (p : list Z) : option (list tok) :=
  match p with
  | [] => Some []
  | 37 :: p' => option_map (cons Any) (tokens p')
  | 95 :: p' => option_map (cons One) (tokens p')
  | 92 :: c :: p' => option_map (cons (Char c)) (tokens p')
  | 92 :: [] => None
  | c :: p' => option_map (cons (Char c)) (tokens p')
  end.
Inductive like : list tok -> list Z -> Prop :=
| like_nil : like [] []
| like_one c ts s : like ts s -> like (One :: ts) (c :: s)
| like_char c ts s : like ts s -> like (Char c :: ts) (c :: s)
| like_any a ts s : like ts s -> like (Any :: ts) (a ++ s).

(** ** string functions *)
Definition prefix (a b : list Z) : Prop := exists r, b = a ++ r.
(** replace every occurrence from left to right *)
Inductive replaced (from to_ : list Z) : list Z -> list Z -> Prop :=
| rep_nil : replaced from to_ [] []
| rep_match s o : replaced from to_ s o -> replaced from to_ (from ++ s) (to_ ++ o)
| rep_char c s o : ~ prefix from (c :: s) -> replaced from to_ s o -> replaced from to_ (c :: s) (c :: o).
