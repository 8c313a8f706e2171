(** The words of an SQL text and the tokens they spell. *)
From Coq Require Import Ascii String.
From Verif Require Import Base DecLib Utf8Spec LexModel.
Local Open Scope Z_scope.

(** white space and comments: "-- ..." to the end of the line *)
Inductive gap : list Z -> Prop :=
| gap_nil : gap []
| gap_space b g : In b [32; 9; 10; 11; 12; 13] -> gap g -> gap (b :: g)
| gap_comment c g : ~ In 10 c -> gap g -> gap (45 :: 45 :: c ++ 10 :: g).
(** at the end of the text a comment may have no end of line *)
Definition gap_end (s : list Z) : Prop :=
  gap s \/ exists g c, s = g ++ 45 :: 45 :: c /\ gap g /\ ~ In 10 c.

Definition letter (b : Z) : Prop := 65 <= b <= 90 \/ 97 <= b <= 122.
Definition digit (b : Z) : Prop := 48 <= b <= 57.
(** bytes of a name: letters, digits, underscore, dollar sign *)
Definition name_char (b : Z) : Prop := letter b \/ digit b \/ b = 95 \/ b = 36.

(** the keywords, in any case *)
Definition sql_keywords : list string :=
  ["AND"; "ADD"; "ANY"; "ALL"; "ALTER"; "ASC"; "AVG"; "AS"; "AT";
   "ALWAYS"; "BEGIN"; "BETWEEN"; "BY"; "BREAK"; "CURRENT_TIMESTAMP"; "CURRENT_DATE"; "CAST"; "CASE";
   "CALL"; "CONFLICT"; "COUNT"; "COMMIT"; "CREATE"; "CHECKPOINT"; "CASCADE"; "COLUMN"; "CONTINUE";
   "DELETE"; "DECLARE"; "DISTINCT"; "DO"; "DROP"; "DESC"; "DEBUG"; "DEFAULT"; "DATE";
   "DATABASE"; "EXTRACT"; "ELSE"; "ELSIF"; "END"; "ERROR"; "EXPLAIN"; "EXISTS"; "EXPIRE";
   "EXTENDED"; "EXECUTE"; "FALSE"; "FROM"; "FOR"; "FUNCTION"; "GROUP"; "GENERATE"; "GENERATED";
   "HAVING"; "IS"; "IN"; "INSERT"; "INTO"; "INTERVAL"; "INNER"; "IF"; "INDEX";
   "INCLUDE"; "IDENTITY"; "JOIN"; "KEY"; "LIKE"; "LOOP"; "LIMIT"; "LEFT"; "LOCAL";
   "LOGGED"; "LOCK"; "MIN"; "MAX"; "NULL"; "NOT"; "NOTHING"; "OR"; "ON";
   "OFFSET"; "ORDER"; "OUTER"; "OUT"; "PROFILE"; "PARTITIONS"; "PARTITION"; "POOL"; "PRIMARY";
   "PAUSE"; "RIGHT"; "RETURNING"; "RETURN"; "REPLACE"; "RENAME"; "REPLICA"; "REPL"; "REPLICATION";
   "RANDOM"; "RESOLVE"; "RESOLVED"; "RESUME"; "SELECT"; "SELF"; "SET"; "SHOW"; "SUM";
   "START"; "STOP"; "SUBSCRIBE"; "SWITCH"; "SECRET"; "STORED"; "STORAGE"; "TRUE"; "TIMESTAMP";
   "TIMEZONE"; "THEN"; "TO"; "TABLE"; "TRUNCATE"; "TOKEN"; "TIER"; "UPDATE"; "UUID";
   "UNSET"; "USE"; "USER"; "UNIQUE"; "USING"; "URI"; "UNSUBSCRIBE"; "UNLOGGED"; "VALUES";
   "VECTOR"; "VIEW"; "WHEN"; "WHERE"; "WHILE"; "WITH"; "WATCH"; "WORKERS"]%string.
Definition upper (b : Z) : Z := if (97 <=? b) && (b <=? 122) then b - 32 else b.
Definition keyword (k : nat) (w : list Z) : Prop :=
  exists name, nth_error sql_keywords k = Some name /\
    map upper w = map (fun c => Z.of_nat (nat_of_ascii c)) (list_ascii_of_string name).

(** names with dots *)
Fixpoint dotted (ps : list (list Z)) : list Z :=
  match ps with [] => [] | [p] => p | p :: ps' => p ++ 46 :: dotted ps' end.
Definition part (p : list Z) : Prop := p <> [] /\ Forall name_char p.
(** the first part begins with a letter or an underscore *)
Definition parts (ps : list (list Z)) : Prop :=
  Forall part ps /\ exists c p ps', ps = (c :: p) :: ps' /\ (letter c \/ c = 95).
(** in backquotes the first part may be anything *)
Definition quoted_parts (ps : list (list Z)) : Prop :=
  exists p ps', ps = p :: ps' /\ Forall name_char p /\ Forall part ps'.

(** symbols of one and of two characters *)
Definition one_symbol : list Z :=  (* ! # $ % & ( ) * + , - . / : ; < = > ? @ [ \ ] ^ { | } ~ *)
  [33; 35; 36; 37; 38; 40; 41; 42; 43; 44; 45; 46; 47; 58; 59; 60; 61; 62; 63; 64; 91; 92; 93; 94; 123; 124; 125; 126].
Definition two_symbols : list (Z * Z * lop) :=
  [(58, 58, LMethod); (58, 61, LAssign); (124, 124, LCat); (45, 62, LArrow); (60, 62, LNeq);
   (62, 61, LGte); (60, 61, LLte); (60, 60, LShl); (62, 62, LShr)].

(** between the quotes [q]: characters (UTF-8), a backslash with any character behind it *)
Inductive body (q : Z) : list Z -> Prop :=
| body_nil : body q []
| body_char c s : code c -> c <> q -> c <> 92 -> body q s -> body q (utf8 c ++ s)
| body_escape c s : code c -> body q s -> body q (92 :: utf8 c ++ s).
Definition has_escape (s : list Z) (e : bool) : Prop := e = true <-> In 92 s.

(** what a string literal stands for, for the escapes [es]: (the character behind the backslash, the byte) *)
Definition sql_escapes : list (Z * Z) :=
  [(92, 92); (34, 34); (39, 39); (97, 7); (98, 8); (102, 12); (110, 10); (114, 13); (116, 9); (118, 11)].
(** all but the single quote *)
Definition most_escapes : list (Z * Z) := filter (fun e => negb (fst e =? 39)) sql_escapes.
Inductive denotes (es : list (Z * Z)) (q : Z) : list Z -> list Z -> Prop :=
| denotes_nil : denotes es q [] []
| denotes_char c s v : code c -> c <> q -> c <> 92 -> denotes es q s v -> denotes es q (utf8 c ++ s) (utf8 c ++ v)
| denotes_escape e c s v : In (e, c) es -> denotes es q s v -> denotes es q (92 :: e :: s) (c :: v).

(** reals: digits, then a point or an exponent or both *)
Definition digits_text (l : list Z) : Prop := Forall digit l.
Definition real_text (w : list Z) : Prop :=
  exists i f x, w = i ++ f ++ x /\ i <> [] /\ digits_text i /\
    (f = [] \/ exists ds, f = 46 :: ds /\ digits_text ds) /\
    (x = [] \/ exists e sign ds, x = e :: sign ++ ds /\ (e = 101 \/ e = 69) /\ In sign [[]; [43]; [45]] /\ ds <> [] /\ digits_text ds) /\
    (f <> [] \/ x <> []).

(** [real w bits]: the word [w] is a real of these bits *)
Inductive spelled (real : list Z -> Z -> Prop) : list Z -> tok -> Prop :=
| sp_int ds : ds <> [] -> digits_text ds -> spelled real ds (TInt (num ds))
| sp_real w bits : real w bits -> spelled real w (TReal bits)
| sp_symbol c : In c one_symbol -> spelled real [c] (TSym c)
| sp_two a b o : In (a, b, o) two_symbols -> spelled real [a; b] (TOp o)
| sp_keyword k w : keyword k w -> spelled real w (TKeyword k)
| sp_name p : parts [p] -> (forall k, ~ keyword k p) -> spelled real p (TName p)
| sp_path ps : parts ps -> (2 <= List.length ps)%nat -> spelled real (dotted ps) (TCompound (dotted ps))
| sp_star ps : parts ps -> spelled real (dotted ps ++ [46; 42]) (TStar (dotted ps ++ [46; 42]))
| sp_quoted_name p : Forall name_char p -> spelled real (96 :: p ++ [96]) (TName p)
| sp_quoted_path ps : quoted_parts ps -> (2 <= List.length ps)%nat -> spelled real (96 :: dotted ps ++ [96]) (TCompound (dotted ps))
| sp_quoted_star ps : quoted_parts ps -> spelled real (96 :: dotted ps ++ [46; 42; 96]) (TStar (dotted ps ++ [46; 42]))
| sp_string q s e : q = 34 \/ q = 39 -> body q s -> has_escape s e -> spelled real (q :: s ++ [q]) (TString s e).

(** the digits a number begins with are an int64 *)
Fixpoint first_digits (s : list Z) : list Z :=
  match s with b :: s' => if (48 <=? b) && (b <=? 57) then b :: first_digits s' else [] | [] => [] end.
Definition in_range (w : list Z) : Prop := num (first_digits w) <= 9223372036854775807.

(** what follows does not make the word longer *)
Definition ends (w : list Z) (t : tok) (rest : list Z) : Prop :=
  forall d r, rest = d :: r ->
  match t with
  | TInt _ | TReal _ => ~ digit d /\ d <> 46 /\ d <> 101 /\ d <> 69
  | TSym c => (forall o, ~ In (c, d, o) two_symbols) /\ ~ (c = 45 /\ d = 45)
  | TName _ | TCompound _ | TKeyword _ => hd 0 w = 96 \/ ~ name_char d /\ d <> 46
  | _ => True
  end.

(** a text of tokens; [ok w t rest] is asked of every word *)
Inductive sql_text (real : list Z -> Z -> Prop) (ok : list Z -> tok -> list Z -> Prop) : list tok -> list Z -> Prop :=
| text_end s : gap_end s -> sql_text real ok [] s
| text_word g w t ts s : gap g -> spelled real w t -> ok w t s -> sql_text real ok ts s ->
    sql_text real ok (t :: ts) (g ++ w ++ s).
