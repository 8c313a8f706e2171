(** What the statements of an input are: a grammar of lexemes, without the separator. *)
From Coq Require Import String.
From Verif Require Import Base HttpModel UriModel SepModel.

(** The lexemes of SQL as far as a statement's end depends on them. *)
Inductive lexeme :=
  | Space (c : Z)              (* a blank, tab or newline *)
  | Quoted (q : Z) (b : list Z)  (* 'b' or "b" *)
  | Comment (b : list Z)       (* --b *)
  | Word (w : list Z)
  | Symbol (c : Z)             (* an operator, bracket, comma, ... *)
  | Semicolon.
Definition spell (x : lexeme) : list Z :=
  match x with
  | Space c => [c] | Quoted q b => [q] ++ b ++ [q] | Comment b => [45; 45] ++ b | Word w => w | Symbol c => [c] | Semicolon => [59]
  end.
Definition spelled (l : list lexeme) : list Z := concat (map spell l).
(** letters, digits, '_', '$', '.', bytes of UTF-8 *)
Definition word_byte (c : Z) : Prop := 97 <= c <= 122 \/ 65 <= c <= 90 \/ 48 <= c <= 57 \/ c = 95 \/ c = 36 \/ c = 46 \/ 128 <= c.
(** the text between quotes [q]: a backslash takes the next byte with it *)
Inductive quoted_text (q : Z) : list Z -> Prop :=
  | Q_end : quoted_text q []
  | Q_plain c b : c <> q -> c <> 92 -> quoted_text q b -> quoted_text q (c :: b)
  | Q_escape c b : quoted_text q b -> quoted_text q (92 :: c :: b).
Definition fine (x : lexeme) : Prop :=
  match x with
  | Space c => c = 32 \/ 9 <= c <= 13
  | Quoted q b => (q = 39 \/ q = 34) /\ quoted_text q b
  | Comment b => ~ In 10 b
  | Word w => w <> [] /\ Forall word_byte w
  | Symbol c => c <> 32 /\ ~ 9 <= c <= 13 /\ c <> 39 /\ c <> 34 /\ c <> 59 /\ c <> 35 /\ ~ word_byte c
  | Semicolon => True
  end.
Definition word_is (w : list Z) (k : string) : Prop := map lower w = text k.
Definition keyword (w : list Z) : Prop := word_is w "begin" \/ word_is w "if" \/ word_is w "case" \/ word_is w "for" \/ word_is w "while" \/ word_is w "end".
(** [x] may stand between: [before] if a space or semicolon (or nothing) is before it, [l] follows *)
Definition separates (x : lexeme) : Prop := match x with Space _ | Semicolon => True | _ => False end.
Definition may_stand (before : Prop) (x : lexeme) (l : list lexeme) : Prop :=
  match x, l with
  | Word w, y :: _ => (match y with Word _ => False | _ => True end) /\ (keyword w -> before /\ separates y)
  | Word _, [] => False
  | Comment _, y :: _ => y = Space 10
  | Comment _, [] => False
  | Symbol c, y :: _ => c = 45 -> y <> Symbol 45 /\ (match y with Comment _ => False | _ => True end)
  | Symbol _, [] => False
  | _, _ => True
  end.
Fixpoint lexemes_ok (before : Prop) (l : list lexeme) : Prop :=
  match l with [] => True | x :: l => fine x /\ may_stand before x l /\ lexemes_ok (separates x) l end.

Definition plain (x : lexeme) : Prop := match x with Semicolon => False | Word w => ~ keyword w | _ => True end.
Definition spaces (l : list lexeme) : Prop := Forall (fun x => match x with Space _ => True | _ => False end) l.
(** an expression: CASE has its END *)
Inductive expression : list lexeme -> Prop :=
  | X_nil : expression []
  | X_plain x l : plain x -> expression l -> expression (x :: l)
  | X_case c e n l : word_is c "case" -> word_is n "end" -> expression e -> expression l -> expression (Word c :: e ++ Word n :: l).
(** the first lexemes of a block: BEGIN, FOR, WHILE, or IF with a condition that does not begin with EXISTS or NOT *)
Inductive opener : list lexeme -> Prop :=
  | O_word w : word_is w "begin" \/ word_is w "for" \/ word_is w "while" -> opener [Word w]
  | O_if w sp x : word_is w "if" -> spaces sp -> plain x -> (forall c, x <> Space c) -> (forall b, x <> Comment b) ->
      (forall v, x = Word v -> ~ word_is v "exists" /\ ~ word_is v "not") -> opener (Word w :: sp ++ [x]).
(** [code b]: a piece of code, blocks have their END; [b]: within a block, where semicolons separate *)
Inductive code (b : bool) : list lexeme -> Prop :=
  | C_nil : code b []
  | C_plain x l : plain x -> code b l -> code b (x :: l)
  | C_case c e n l : word_is c "case" -> word_is n "end" -> expression e -> code b l -> code b (Word c :: e ++ Word n :: l)
  | C_block o i n l : opener o -> word_is n "end" -> code true i -> code b l -> code b (o ++ i ++ Word n :: l)
  | C_if_exists w sp v s l : word_is w "if" -> spaces sp -> word_is v "exists" \/ word_is v "not" -> separates s ->
      code b (s :: l) -> code b (Word w :: sp ++ Word v :: s :: l)
  | C_semicolon l : b = true -> code b l -> code b (Semicolon :: l)
  | C_end_if w sp l : b = true -> word_is w "if" -> spaces sp -> code b l -> code b (Word w :: sp ++ Semicolon :: l).
(** a statement: code and a semicolon behind it, or END IF and a semicolon *)
Inductive statement : list lexeme -> Prop :=
  | S_code l : code false l -> statement (l ++ [Semicolon])
  | S_end_if l w sp : code false l -> word_is w "if" -> spaces sp -> statement (l ++ Word w :: sp ++ [Semicolon]).
(** blank text *)
Definition blank (s : list Z) : Prop := Forall (fun c => c = 32 \/ 9 <= c <= 13) s.
(** the same statements: without the blanks before them *)
Fixpoint no_blanks (s : list Z) : list Z := match s with [] => [] | c :: r => if space c then no_blanks r else s end.
(** [ls] typed with blanks between: a statement does not begin with them *)
Definition no_space (l : list lexeme) : Prop := match l with Space _ :: _ => False | _ => True end.
Inductive typed : list (list lexeme) -> list Z -> Prop :=
  | T_end s : blank s -> typed [] s
  | T_next s l ls t : blank s -> statement l -> lexemes_ok True l -> no_space l -> typed ls t -> typed (l :: ls) (s ++ spelled l ++ t).
(** what the lines are on the wire: each with its newline *)
Definition input (lines : list (list Z)) : list Z := concat (map (fun l => l ++ [10]) lines).
(** [e] are pieces of [s] in their order, with nothing but blanks between *)
Inductive pieces : list (list Z) -> list Z -> Prop :=
  | P_end s : blank s -> pieces [] s
  | P_next s b e t : blank s -> pieces e t -> pieces (b :: e) (s ++ b ++ t).
