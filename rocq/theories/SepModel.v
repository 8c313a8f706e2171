(** Model of how the console splits its input into statements: runtime/lib/separator.h,
    main/main/main_cli.c:63-125.

    Simplified: [self->pos] is the byte before it (None at the beginning of the buffer) and the bytes
    from it to [self->end]; separator_next and the loop of separator_read that calls it are one loop
    [scan], what separator_next returns is handled where it returns; the switch over the first letter
    of a keyword is left out, separator_match compares it too. *)
From Coq Require Import String Ascii.
From Verif Require Import Base HttpModel UriModel.

(** isspace of the C locale *)
Definition space (c : Z) : bool := (c =? 32) || ((9 <=? c) && (c <=? 13)).
Definition NL : Z := 10.
Definition SEMI : Z := 59.
Definition position := (option Z * list Z)%type.
(** separator.h:66-67, 76-77 *)
Fixpoint skip_spaces (p : option Z) (s : list Z) : position :=
  match s with [] => (p, []) | c :: r => if space c then skip_spaces (Some c) r else (p, s) end.
Fixpoint to_newline (p : option Z) (s : list Z) : position :=
  match s with [] => (p, []) | c :: r => if c =? NL then (p, s) else to_newline (Some c) r end.
(** separator.h:62-81 separator_skip *)
Definition skip (p : option Z) (s : list Z) : position :=
  let (p, s) := skip_spaces p s in
  match s with
  | a :: b :: _ => if (a =? 45) && (b =? 45) then to_newline p s else (p, s)
  | _ => (p, s)
  end.
(** separator.h:92-116 separator_skip_string, behind the first character [q] *)
Fixpoint skip_string (q : Z) (slash : bool) (p : option Z) (s : list Z) : position :=
  match s with
  | [] => (p, [])
  | c :: r =>
      if c =? q then (if slash then skip_string q false (Some c) r else (Some c, r))
      else skip_string q (if c =? 92 then negb slash else false) (Some c) r
  end.
(** separator.h:118-137 separator_match *)
Definition match_word (w : list Z) (p : option Z) (s : list Z) : option position :=
  let n := length w in
  if match p with None => true | Some b => (b =? SEMI) || space b end then
    if (length s <? n + 1)%nat then None
    else if is_case (firstn n s) w then
      match skipn n s with
      | c :: r => if space c || (c =? SEMI) then Some (Some (last (firstn n s) 0), c :: r) else None
      | [] => None
      end
    else None
  else None.
(** separator.h:16-26 *)
Inductive token := OPEN | CASE | END | SEMICOLON.
(** what is at the position: a token, nothing of interest, or the end of the data *)
Inductive found := Token (t : token) (q : position) | Skip (q : position) | Eof.
(** separator.h:148-210, behind separator_skip *)
Definition at_position (p : option Z) (s : list Z) : found :=
  match s with
  | [] => Eof
  | c :: r =>
      match match_word (text "begin") p s with
      | Some q => Token OPEN q
      | None =>
      match match_word (text "if") p s with
      | Some (p, s) =>
          let (p, s) := skip p s in
          match s with
          | [] => Eof
          | c :: _ =>
              if c =? SEMI then Skip (p, s)
              else match match_word (text "exists") p s with
                   | Some q => Skip q
                   | None => match match_word (text "not") p s with Some q => Skip q | None => Token OPEN (p, s) end
                   end
          end
      | None =>
      match match_word (text "case") p s with
      | Some q => Token CASE q
      | None =>
      match match_word (text "for") p s with
      | Some q => Token OPEN q
      | None =>
      match match_word (text "while") p s with
      | Some q => Token OPEN q
      | None =>
      match match_word (text "end") p s with
      | Some q => Token END q
      | None =>
          if c =? SEMI then Token SEMICOLON (Some c, r)
          else if (c =? 39) || (c =? 34) then
            let (p, s) := skip_string c false (Some c) r in match s with [] => Eof | _ => Skip (p, s) end
          else Skip (Some c, r)
      end end end end end end
  end.
(** separator.h:139-214 separator_next, 256-293 the loop of separator_read: the bytes behind the block,
    None if there is no end of it yet *)
Fixpoint scan (fuel : nat) (in_case : nat) (level : Z) (p : option Z) (s : list Z) : option (list Z) :=
  match fuel with
  | O => None
  | S fuel =>
      let (p, s) := skip p s in
      match at_position p s with
      | Eof => None
      | Skip (p, s) => scan fuel in_case level p s
      | Token OPEN (p, s) => scan fuel in_case (level + 1) p s
      | Token CASE (p, s) => scan fuel (S in_case) level p s
      | Token END (p, s) =>
          match in_case with
          | S in_case => scan fuel in_case level p s
          | O => if level - 1 <? 0 then Some s else scan fuel O (level - 1) p s
          end
      | Token SEMICOLON (p, s) => if level =? 0 then Some s else scan fuel in_case level p s
      end
  end.
(** separator.h:216-297 separator_read, 308-322 separator_advance: a block and the buffer behind it.
    A buffer of spaces is an empty block that takes all of it *)
Definition read_block (buf : list Z) : option (list Z * list Z) :=
  match buf with
  | [] => None
  | _ =>
      let (p, s) := skip None buf in
      match s with
      | [] => Some ([], [])
      | c :: _ =>
          let rest := if c =? 35 then Some (snd (to_newline p s)) else scan (S (length s)) 0 0 p s in
          match rest with Some rest => Some (firstn (length buf - length rest) buf, rest) | None => None end
      end
  end.
(** main_cli.c:119-123.  [fuel] is more than the bytes of the buffer *)
Fixpoint read_blocks (fuel : nat) (buf : list Z) : list (list Z) * list Z :=
  match fuel with
  | O => ([], buf)
  | S fuel => match read_block buf with None => ([], buf) | Some (b, rest) => let (l, left) := read_blocks fuel rest in (b :: l, left) end
  end.
(** separator.h:49-54 separator_write, main_cli.c:93-124: the lines of the console, what is executed
    line by line (main_execute, 17-20, does nothing for an empty block), what is left *)
Definition write (buf line : list Z) : list Z := buf ++ line ++ [NL].
Fixpoint console (buf : list Z) (lines : list (list Z)) : list (list Z) * list Z :=
  match lines with
  | [] => ([], buf)
  | line :: lines =>
      let buf := write buf line in
      let (l, buf) := read_blocks (S (length buf)) buf in
      let (k, left) := console buf lines in (filter nonempty l ++ k, left)
  end.
(** main_cli.c:108-113: at the end of the input what is left is executed too *)
Definition executed (lines : list (list Z)) : list (list Z) :=
  let (l, left) := console [] lines in l ++ (if nonempty left then [left] else []).
