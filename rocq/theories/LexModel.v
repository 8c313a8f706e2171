(** Model of the scanner of SQL texts: /repo/amelie/compiler/parser/lex.c, lex.h,
    keyword.c, and the value of a string literal (compiler/compiler/emit_expr.c).
    A pointer into the text is the list of the bytes from it to the end.  [sd] is
    strtod of the C library (None if errno is ERANGE), a parameter.  Character
    classes are those of the C locale (nothing calls setlocale); for bytes of 128
    and more the C library of Linux answers no.  The message of an error is not
    modelled. *)
From Coq Require Import Ascii String.
From Verif Require Import Base DecLib Utf8Model JsonModel JsonTextModel TimeModel.
Local Open Scope Z_scope.

(** isalpha, isspace, ispunct, tolower *)
Definition is_alpha (b : Z) : bool := (65 <=? b) && (b <=? 90) || (97 <=? b) && (b <=? 122).
Definition is_space (b : Z) : bool := (b =? 32) || (9 <=? b) && (b <=? 13).
Definition is_punct (b : Z) : bool :=
  (33 <=? b) && (b <=? 47) || (58 <=? b) && (b <=? 64) || (91 <=? b) && (b <=? 96) || (123 <=? b) && (b <=? 126).
Definition lower (b : Z) : Z := if (65 <=? b) && (b <=? 90) then b + 32 else b.

(** ** keywords (keyword.c) *)
Definition text_of (s : string) : list Z := map (fun c => Z.of_nat (nat_of_ascii c)) (list_ascii_of_string s).
(** keyword.c:20-203: name and name_size; the id of a keyword is its position
    (keyword.h has the same order) *)
Definition keywords : list (string * nat) :=
  [("and", 3%nat); ("add", 3%nat); ("any", 3%nat); ("all", 3%nat); ("alter", 5%nat); ("asc", 3%nat);
   ("avg", 3%nat); ("as", 2%nat); ("at", 2%nat); ("always", 6%nat); ("begin", 5%nat); ("between", 7%nat);
   ("by", 2%nat); ("break", 5%nat); ("current_timestamp", 17%nat); ("current_date", 12%nat); ("cast", 4%nat); ("case", 4%nat);
   ("call", 4%nat); ("conflict", 8%nat); ("count", 5%nat); ("commit", 6%nat); ("create", 6%nat); ("checkpoint", 10%nat);
   ("cascade", 7%nat); ("column", 6%nat); ("continue", 8%nat); ("delete", 6%nat); ("declare", 7%nat); ("distinct", 8%nat);
   ("do", 2%nat); ("drop", 4%nat); ("desc", 4%nat); ("debug", 5%nat); ("default", 7%nat); ("date", 4%nat);
   ("database", 8%nat); ("extract", 7%nat); ("else", 4%nat); ("elsif", 5%nat); ("end", 3%nat); ("error", 5%nat);
   ("explain", 7%nat); ("exists", 6%nat); ("expire", 6%nat); ("extended", 8%nat); ("execute", 7%nat); ("false", 5%nat);
   ("from", 4%nat); ("for", 3%nat); ("function", 8%nat); ("group", 5%nat); ("generate", 8%nat); ("generated", 9%nat);
   ("having", 6%nat); ("is", 2%nat); ("in", 2%nat); ("insert", 6%nat); ("into", 4%nat); ("interval", 8%nat);
   ("inner", 5%nat); ("if", 2%nat); ("index", 5%nat); ("include", 7%nat); ("identity", 8%nat); ("join", 4%nat);
   ("key", 3%nat); ("like", 4%nat); ("loop", 4%nat); ("limit", 5%nat); ("left", 4%nat); ("local", 5%nat);
   ("logged", 6%nat); ("lock", 4%nat); ("min", 3%nat); ("max", 3%nat); ("null", 4%nat); ("not", 3%nat);
   ("nothing", 7%nat); ("or", 2%nat); ("on", 2%nat); ("offset", 6%nat); ("order", 5%nat); ("outer", 5%nat);
   ("out", 3%nat); ("profile", 7%nat); ("partitions", 10%nat); ("partition", 9%nat); ("pool", 4%nat); ("primary", 7%nat);
   ("pause", 5%nat); ("right", 5%nat); ("returning", 9%nat); ("return", 6%nat); ("replace", 7%nat); ("rename", 6%nat);
   ("replica", 7%nat); ("repl", 4%nat); ("replication", 11%nat); ("random", 6%nat); ("resolve", 7%nat); ("resolved", 8%nat);
   ("resume", 6%nat); ("select", 6%nat); ("self", 4%nat); ("set", 3%nat); ("show", 4%nat); ("sum", 3%nat);
   ("start", 5%nat); ("stop", 4%nat); ("subscribe", 9%nat); ("switch", 6%nat); ("secret", 6%nat); ("stored", 6%nat);
   ("storage", 7%nat); ("true", 4%nat); ("timestamp", 9%nat); ("timezone", 8%nat); ("then", 4%nat); ("to", 2%nat);
   ("table", 5%nat); ("truncate", 8%nat); ("token", 5%nat); ("tier", 4%nat); ("update", 6%nat); ("uuid", 4%nat);
   ("unset", 5%nat); ("use", 3%nat); ("user", 4%nat); ("unique", 6%nat); ("using", 5%nat); ("uri", 3%nat);
   ("unsubscribe", 11%nat); ("unlogged", 8%nat); ("values", 6%nat); ("vector", 6%nat); ("view", 4%nat); ("when", 4%nat);
   ("where", 5%nat); ("while", 5%nat); ("with", 4%nat); ("watch", 5%nat); ("workers", 7%nat)]%string.
(** keyword.c:205-233: for a letter, where its keywords begin *)
Definition keywords_alpha : list (option nat) :=
  [Some 0%nat; Some 10%nat; Some 14%nat; Some 27%nat; Some 37%nat; Some 47%nat; Some 51%nat;
   Some 54%nat; Some 55%nat; Some 65%nat; Some 66%nat; Some 67%nat; Some 74%nat; Some 76%nat;
   Some 79%nat; Some 85%nat; None; Some 91%nat; Some 103%nat; Some 115%nat; Some 124%nat;
   Some 134%nat; Some 137%nat; None; None; None].

(** ** tokens *)
Inductive lop := LShl | LShr | LLte | LGte | LNeq | LCat | LArrow | LMethod | LAssign.
Inductive tok :=
| TEof
| TInt (v : Z)
| TReal (bits : Z)
| TSym (c : Z)
| TOp (o : lop)
| TName (s : list Z)           (* KNAME *)
| TCompound (s : list Z)       (* KNAME_COMPOUND *)
| TStar (s : list Z)           (* KNAME_COMPOUND_STAR *)
| TKeyword (k : nat)
| TString (s : list Z) (escape : bool).

(** lex.c:126-141 lex_keyword_match; [name] is not empty and begins with a letter *)
Fixpoint match_from (ref : Z) (name : list Z) (k : nat) (l : list (string * nat)) : option nat :=
  match l with
  | [] => None
  | (kw, size) :: l' =>
    match text_of kw with
    | c :: _ =>
      if negb (c =? ref) then None
      else if Nat.eqb (List.length name) size && bytes_eqb (map lower (firstn size name)) (firstn size (text_of kw))
      then Some k else match_from ref name (S k) l'
    | [] => None
    end
  end.
Definition keyword_match (name : list Z) : res (option nat) :=
  match name with
  | [] => UB
  | c :: _ =>
    match nth_error keywords_alpha (Z.to_nat (lower c - 97)) with
    | None => UB
    | Some None => Ok None
    | Some (Some k) => Ok (match_from (lower c) name k (skipn k keywords))
    end
  end.

(** lex.c:183-204 skip white spaces and comments *)
Fixpoint skip_ws (s : list Z) : list Z :=
  match s with b :: s' => if is_space b then skip_ws s' else s | [] => [] end.
Fixpoint skip_line (s : list Z) : list Z :=
  match s with b :: s' => if b =? 10 then s else skip_line s' | [] => [] end.
Fixpoint skip_gap (fuel : nat) (s : list Z) : list Z :=
  match fuel with
  | O => s
  | S f =>
    let s := skip_ws s in
    match s with
    | b :: c :: _ => if (b =? 45) && (c =? 45) then skip_gap f (skip_line s) else s
    | _ => s
    end
  end.

(** lex.c:249-298 two symbols *)
Definition symbols (a b : Z) : option lop :=
  if (a =? 58) && (b =? 58) then Some LMethod
  else if (a =? 58) && (b =? 61) then Some LAssign
  else if (a =? 124) && (b =? 124) then Some LCat
  else if (a =? 45) && (b =? 62) then Some LArrow
  else if (a =? 60) && (b =? 62) then Some LNeq
  else if (a =? 62) && (b =? 61) then Some LGte
  else if (a =? 60) && (b =? 61) then Some LLte
  else if (a =? 60) && (b =? 60) then Some LShl
  else if (a =? 62) && (b =? 62) then Some LShr
  else None.

(** lex.c:316-327 the loop of a name: the name, whether it has a dot, whether its
    last byte is a dot, and the position behind it *)
Definition name_byte (b : Z) : bool := (b =? 95) || (b =? 46) || (b =? 36) || is_alpha b || is_digit b.
Fixpoint name_loop (dot last : bool) (s : list Z) : res (list Z * bool * bool * list Z) :=
  match s with
  | b :: s' =>
    if name_byte b then
      if (b =? 46) && (dot && last) then Err
      else do (w, d, l, r) <- name_loop (dot || (b =? 46)) (b =? 46) s'; Ok (b :: w, d, l, r)
    else Ok ([], dot, last, s)
  | [] => Ok ([], dot, last, [])
  end.

(** lex.c:383-405 the loop of a string: whether it has a backslash, and the
    position, at the quote *)
Fixpoint lex_string (fuel : nat) (q : Z) (slash escape : bool) (s : list Z) : res (bool * list Z) :=
  match fuel with
  | O => UB
  | S f =>
    match s with
    | [] => Err
    | c :: s' =>
      if (c =? q) && slash then lex_string f q false escape s'
      else if c =? q then Ok (escape, s)
      else
        do (u, r) <- utf8_next s;
        match u with
        | None => Err
        | Some _ => lex_string f q (if c =? 92 then negb slash else false) (if c =? 92 then true else escape) r
        end
    end
  end.

Section Lex.
Context (sd : list Z -> option (Z * list Z)).

(** lex.c:208-237 a number; the loop over the digits is that of json_parser.c *)
Definition lex_number (s : list Z) : res (tok * list Z) :=
  do x <- int_loop 0 s;
  match x with
  | inl (v, r) => Ok (TInt v, r)
  | inr _ => match sd s with None => Err | Some (bits, r) => Ok (TReal bits, r) end
  end.

(** lex.c:305-362 a keyword or a name; [s] is behind the quote if [wrapped] *)
Definition lex_name (keywords_enable wrapped : bool) (s : list Z) : res (tok * list Z) :=
  do (w, dot, last, r) <- name_loop false false s;
  do (t, r1) <- (if dot : bool then
                   if last : bool then
                     match r with
                     | b :: r' => if b =? 42 then Ok (TStar (w ++ [42]), r') else Err
                     | [] => Err
                     end
                   else Ok (TCompound w, r)
                 else Ok (TName w, r));
  if wrapped then
    match r1 with b :: r2 => if b =? 96 then Ok (t, r2) else Err | [] => Err end
  else
    match t with
    | TName (c :: w') =>
      if keywords_enable && negb (c =? 95) then
        do k <- keyword_match (c :: w');
        match k with Some k => Ok (TKeyword k, r1) | None => Ok (t, r1) end
      else Ok (t, r1)
    | _ => Ok (t, r1)
    end.

(** lex.c:167-418 lex_next without the backlog: the token, the position where it
    begins (pos_start) and the position behind it (pos_end) *)
Definition lex_next (keywords_enable : bool) (text : list Z) : res (tok * list Z * list Z) :=
  let s := skip_gap (S (List.length text)) text in
  match s with
  | [] => Ok (TEof, [], [])
  | b :: s' =>
    if is_digit b then do (t, r) <- lex_number s; Ok (t, s, r)
    else if is_punct b && negb (b =? 34) && negb (b =? 39) && negb (b =? 96) && negb (b =? 95) then
      match s' with
      | [] => Ok (TSym b, s, [])
      | c :: s'' => match symbols b c with Some o => Ok (TOp o, s, s'') | None => Ok (TSym b, s, s') end
      end
    else if is_alpha b || (b =? 95) then do (t, r) <- lex_name keywords_enable false s; Ok (t, s, r)
    else if b =? 96 then do (t, r) <- lex_name keywords_enable true s'; Ok (t, s, r)
    else if (b =? 34) || (b =? 39) then
      do (e, r) <- lex_string (S (List.length s')) b false false s';
      Ok (TString (firstn (List.length s' - List.length r) s') e, s, tl r)
    else Err
  end.

(** the tokens of a text: lex_next until KEOF *)
Fixpoint lex_all (fuel : nat) (text : list Z) : res (list tok) :=
  match fuel with
  | O => UB
  | S f =>
    do (t, _, r) <- lex_next true text;
    match t with TEof => Ok [] | _ => do l <- lex_all f r; Ok (t :: l) end
  end.

(** ** the backlog (lex.c:170-177, lex.h:36-69); the head of the list is the last pushed *)
Record lex := mklex { x_pos : list Z; x_keywords : bool; x_backlog : list tok }.
Definition lex_start (text : list Z) : lex := mklex text true [].
Definition lex_read (x : lex) : res (tok * lex) :=
  match x_backlog x with
  | t :: l => Ok (t, mklex (x_pos x) (x_keywords x) l)
  | [] => do (t, _, r) <- lex_next (x_keywords x) (x_pos x); Ok (t, mklex r (x_keywords x) [])
  end.
Definition lex_push (x : lex) (t : tok) : lex := mklex (x_pos x) (x_keywords x) (t :: x_backlog x).
(** lex_next_shadow *)
Definition lex_read_shadow (x : lex) : res (tok * lex) :=
  do (t, y) <- lex_read (mklex (x_pos x) false (x_backlog x)); Ok (t, mklex (x_pos y) true (x_backlog y)).
End Lex.

(** emit_expr.c:40-49, 1271-1280, parse_encode.h:24-36: the value of a string literal *)
Definition string_value (s : list Z) (escape : bool) : res (list Z) := if escape then unescape false s else Ok s.
