(** Specification: the JSON texts of a value (RFC 8259).
    [ext]: the texts may have the escapes \/ and \uXXXX.
    [lax]: strings may also have control characters other than line feed, and code points that
    Unicode does not have. *)
From Verif Require Import Base DecLib Utf8Spec JsonSpec.
Local Open Scope Z_scope.

(** RFC 8259, 2: white space *)
Definition ws (l : list Z) : Prop := Forall (fun b => In b [32; 9; 10; 13]) l.
(** RFC 8259, 7: characters that stand for themselves *)
Definition plain (lax : bool) (c : Z) : Prop :=
  c <> 34 /\ c <> 92 /\ if lax then code c /\ c <> 10 else scalar c /\ 32 <= c.
(** RFC 8259, 7: the letter behind the backslash and the character it stands for *)
Definition escapes : list (Z * Z) := [(34, 34); (92, 92); (98, 8); (102, 12); (110, 10); (114, 13); (116, 9)].
Definition hex_value (b : Z) : option Z :=
  if (48 <=? b) && (b <=? 57) then Some (b - 48)
  else if (65 <=? b) && (b <=? 70) then Some (b - 55)
  else if (97 <=? b) && (b <=? 102) then Some (b - 87) else None.
(** the text between the quotes of a string *)
Inductive jstr (lax ext : bool) : list Z -> list Z -> Prop :=
| js_nil : jstr lax ext [] []
| js_char c s t : plain lax c -> jstr lax ext s t -> jstr lax ext (utf8 c ++ s) (utf8 c ++ t)
| js_esc e c s t : In (e, c) escapes -> jstr lax ext s t -> jstr lax ext (c :: s) (92 :: e :: t)
| js_solidus s t : ext = true -> jstr lax ext s t -> jstr lax ext (47 :: s) (92 :: 47 :: t)
| js_u a b c d wa wb wc wd s t : ext = true ->
    hex_value a = Some wa -> hex_value b = Some wb -> hex_value c = Some wc -> hex_value d = Some wd ->
    scalar (((wa * 16 + wb) * 16 + wc) * 16 + wd) -> jstr lax ext s t ->
    jstr lax ext (utf8 (((wa * 16 + wb) * 16 + wc) * 16 + wd) ++ s) (92 :: 117 :: a :: b :: c :: d :: t).
Definition quoted (t : list Z) : list Z := 34 :: t ++ [34].
(** RFC 8259, 6: integers *)
Definition jint (z : Z) (t : list Z) : Prop :=
  exists (neg : bool) ds, t = (if neg then [45] else []) ++ ds /\ forallb is_digit ds = true /\
    (ds = [48] \/ (exists d ds', ds = d :: ds' /\ d <> 48)) /\ z = if neg then - num ds else num ds.
(** RFC 8259, 3-5: values (without numbers that have a fraction or an exponent) *)
Inductive jtext (lax ext : bool) : json -> list Z -> Prop :=
| jt_null : jtext lax ext JNull [110; 117; 108; 108]
| jt_true : jtext lax ext (JBool true) [116; 114; 117; 101]
| jt_false : jtext lax ext (JBool false) [102; 97; 108; 115; 101]
| jt_int z t : jint z t -> jtext lax ext (JInt z) t
| jt_str s t : jstr lax ext s t -> jtext lax ext (JStr s) (quoted t)
| jt_arr0 w : ws w -> jtext lax ext (JArr []) (91 :: w ++ [93])
| jt_arr vs t : jitems lax ext vs t -> jtext lax ext (JArr vs) (91 :: t ++ [93])
| jt_obj0 w : ws w -> jtext lax ext (JObj []) (123 :: w ++ [125])
| jt_obj fs t : jfields lax ext fs t -> jtext lax ext (JObj fs) (123 :: t ++ [125])
with jitems (lax ext : bool) : list json -> list Z -> Prop :=
| ji_one v w1 t w2 : ws w1 -> ws w2 -> jtext lax ext v t -> jitems lax ext [v] (w1 ++ t ++ w2)
| ji_more v w1 t w2 vs ts : ws w1 -> ws w2 -> jtext lax ext v t -> jitems lax ext vs ts ->
    jitems lax ext (v :: vs) (w1 ++ t ++ w2 ++ 44 :: ts)
with jfields (lax ext : bool) : list (list Z * json) -> list Z -> Prop :=
| jf_one k tk v w1 w2 w3 t w4 : ws w1 -> ws w2 -> ws w3 -> ws w4 -> jstr lax ext k tk -> jtext lax ext v t ->
    jfields lax ext [(k, v)] (w1 ++ quoted tk ++ w2 ++ 58 :: w3 ++ t ++ w4)
| jf_more k tk v w1 w2 w3 t w4 fs ts : ws w1 -> ws w2 -> ws w3 -> ws w4 -> jstr lax ext k tk -> jtext lax ext v t ->
    jfields lax ext fs ts -> jfields lax ext ((k, v) :: fs) (w1 ++ quoted tk ++ w2 ++ 58 :: w3 ++ t ++ w4 ++ 44 :: ts).
(** RFC 8259, 2: a document *)
Definition jdoc (lax ext : bool) (v : json) (doc : list Z) : Prop :=
  exists w1 t w2, ws w1 /\ ws w2 /\ jtext lax ext v t /\ doc = w1 ++ t ++ w2.

(** conditions on the strings and the numbers of a value *)
Fixpoint strings_ok (P : list Z -> Prop) (v : json) : Prop :=
  match v with
  | JStr s => P s
  | JObj l => fold_right (fun kv q => P (fst kv) /\ strings_ok P (snd kv) /\ q) True l
  | JArr l => fold_right (fun x q => strings_ok P x /\ q) True l
  | _ => True
  end.
Fixpoint ints_ok (P : Z -> Prop) (v : json) : Prop :=
  match v with
  | JInt z => P z
  | JObj l => fold_right (fun kv q => ints_ok P (snd kv) /\ q) True l
  | JArr l => fold_right (fun x q => ints_ok P x /\ q) True l
  | _ => True
  end.

(** ** The texts the parser accepts: a superset of RFC 8259 without numbers that have a fraction or
    an exponent.  White space is what isspace accepts, literals are in upper or lower case, strings
    are in single or double quotes, integers may have leading zeros. *)
Definition sp (l : list Z) : Prop := Forall (fun b => In b [32; 9; 10; 11; 12; 13]) l.
(** letters without case *)
Definition same_letters (t name : list Z) : Prop := Forall2 (fun a b => a = b \/ a = b - 32) t name.
(** between quotes [q]: characters other than the quote, line feed and backslash, and a backslash
    with any other character than line feed *)
Inductive lraw (q : Z) : list Z -> Prop :=
| lr_nil : lraw q []
| lr_char c t : code c -> c <> q -> c <> 10 -> c <> 92 -> lraw q t -> lraw q (utf8 c ++ t)
| lr_esc c t : code c -> c <> 10 -> lraw q t -> lraw q (92 :: utf8 c ++ t).
(** a string whose escapes are all known, and what it stands for (a backslash at the end is dropped) *)
Inductive known_escapes : list Z -> list Z -> Prop :=
| ke_nil : known_escapes [] []
| ke_end : known_escapes [92] []
| ke_char b s r : b <> 92 -> known_escapes s r -> known_escapes (b :: s) (b :: r)
| ke_esc e c s r : In (e, c) [(92, 92); (34, 34); (97, 7); (98, 8); (102, 12); (110, 10); (114, 13); (116, 9); (118, 11)] -> known_escapes s r -> known_escapes (92 :: e :: s) (c :: r).
Definition lstring (s t : list Z) : Prop :=
  exists q raw, (q = 34 \/ q = 39) /\ t = q :: raw ++ [q] /\ lraw q raw /\ known_escapes raw s.
Definition lint (z : Z) (t : list Z) : Prop :=
  exists (neg : bool) ds, t = (if neg then [45] else []) ++ ds /\ forallb is_digit ds = true /\ (neg = true \/ ds <> []) /\
    num ds <= 9223372036854775807 /\ z = if neg then - num ds else num ds.
Inductive ltext : json -> list Z -> Prop :=
| lt_null t : same_letters t [110; 117; 108; 108] -> ltext JNull t
| lt_true t : same_letters t [116; 114; 117; 101] -> ltext (JBool true) t
| lt_false t : same_letters t [102; 97; 108; 115; 101] -> ltext (JBool false) t
| lt_int z t : lint z t -> ltext (JInt z) t
| lt_str s t : lstring s t -> ltext (JStr s) t
| lt_arr0 w : sp w -> ltext (JArr []) (91 :: w ++ [93])
| lt_arr w v t vs ts : sp w -> ltext v t -> lnext vs ts -> ltext (JArr (v :: vs)) (91 :: w ++ t ++ ts)
| lt_obj0 w : sp w -> ltext (JObj []) (123 :: w ++ [125])
| lt_obj fs ts : lkey fs ts -> ltext (JObj fs) (123 :: ts)
(** the rest of an array behind an item *)
with lnext : list json -> list Z -> Prop :=
| ln_end w : sp w -> lnext [] (w ++ [93])
| ln_more w w2 v t vs ts : sp w -> sp w2 -> ltext v t -> lnext vs ts -> lnext (v :: vs) (w ++ 44 :: w2 ++ t ++ ts)
(** the rest of an object from a key *)
with lkey : list (list Z * json) -> list Z -> Prop :=
| lk_key w k tk w2 w3 v t fs ts : sp w -> lstring k tk -> sp w2 -> sp w3 -> ltext v t -> lfield fs ts ->
    lkey ((k, v) :: fs) (w ++ tk ++ w2 ++ 58 :: w3 ++ t ++ ts)
(** the rest of an object behind a field *)
with lfield : list (list Z * json) -> list Z -> Prop :=
| lf_end w : sp w -> lfield [] (w ++ [125])
| lf_more w fs ts : sp w -> lkey fs ts -> lfield fs (w ++ 44 :: ts).
