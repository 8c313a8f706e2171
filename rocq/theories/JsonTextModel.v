(** Model of the JSON text: runtime/json/escape.h, json_export.c and json_parser.c.  A pointer into
    the text is the list of the bytes from it to the end.  [g] is what "%g" prints for a real and
    [sd] is strtod of the C library (None if errno is ERANGE): both are parameters.  Unlike the
    code, [sd] does not read behind the end of the text. *)
From Verif Require Import Base DecLib TimeModel Utf8Model JsonModel.
Local Open Scope Z_scope.

(** ** escape.h *)
(** escape.h:73-106 escape_str, one byte *)
Definition escape_byte (b : Z) : list Z :=
  if b =? 34 then [92; 34]
  else if b =? 92 then [92; 92]
  else if b =? 8 then [92; 98]
  else if b =? 12 then [92; 102]
  else if b =? 10 then [92; 110]
  else if b =? 13 then [92; 114]
  else if b =? 9 then [92; 116]
  else [b].
Definition escape (s : list Z) : list Z := flat_map escape_byte s.
(** escape.h:36-64 the switch of unescape_str; None: no case, the byte of the result is not written *)
Definition unescape_byte (b : Z) : option Z :=
  if b =? 92 then Some 92
  else if b =? 34 then Some 34
  else if b =? 97 then Some 7
  else if b =? 98 then Some 8
  else if b =? 102 then Some 12
  else if b =? 110 then Some 10
  else if b =? 114 then Some 13
  else if b =? 116 then Some 9
  else if b =? 118 then Some 11
  else None.
(** escape.h:14-71 unescape_str.  A byte of the result that is not written is undefined *)
Fixpoint unescape (slash : bool) (s : list Z) : res (list Z) :=
  match s with
  | [] => Ok []
  | b :: s' =>
    if (b =? 92) && negb slash then unescape true s'
    else if negb slash then do r <- unescape false s'; Ok (b :: r)
    else match unescape_byte b with
         | Some c => do r <- unescape false s'; Ok (c :: r)
         | None => UB
         end
  end.

(** ** json_export.c *)
(** the literals written by json_export.c:24-35 *)
Definition lit_null : list Z := [110; 117; 108; 108].
Definition lit_true : list Z := [116; 114; 117; 101].
Definition lit_false : list Z := [102; 97; 108; 115; 101].
(** json_export.c:89-90 and 102-103 *)
Definition indent (pretty : bool) (deep : nat) : list Z := if pretty then repeat 32 (2 * deep) else [].
(** json_export.c:96-100 and 115-117, [last]: json_is_obj_end *)
Definition obj_sep (pretty last : bool) : list Z :=
  if pretty then (if last then [10] else [44; 10]) else (if last then [] else [44; 32]).
Section Export.
Variable g : Z -> list Z.
(** json_export.c:18-127 json_export_as: the text and the new position.  [fuel] bounds the depth
    of the recursion and the loops, which the bytes read bound *)
Fixpoint export (fuel : nat) (pretty : bool) (deep : nat) (l : list Z) : res (list Z * list Z) :=
  match fuel with
  | O => UB
  | S f =>
    match l with
    | [] => UB
    | t :: r =>
      if t =? JSON_NULL then Ok (lit_null, r)
      else if in_rng JSON_TRUE JSON_FALSE t then
        do (b, r') <- json_read_bool l; Ok (if (b : bool) then lit_true else lit_false, r')
      else if in_rng JSON_REAL32 JSON_REAL64 t then
        do (b, r') <- json_read_real l; Ok (g b, r')
      else if in_rng JSON_INTV0 JSON_INT64 t then
        do (z, r') <- json_read_integer l; Ok (dec z, r')
      else if in_rng JSON_STRINGV0 JSON_STRING32 t then
        do (s, r') <- json_read_raw l; Ok (34 :: escape s ++ [34], r')
      else if t =? JSON_ARRAY then
        do (x, r') <- export_items f pretty deep r; Ok (91 :: x ++ [93], r')
      else if t =? JSON_OBJ then
        if pretty then
          do (e, r1) <- json_read_end JSON_OBJ_END r;
          if (e : bool) then Ok ([123; 125], r1)
          else do (x, r') <- export_fields f pretty deep r1;
               Ok (123 :: 10 :: x ++ indent pretty deep ++ [125], r')
        else do (x, r') <- export_fields f pretty deep r; Ok (123 :: x ++ [125], r')
      else Err
    end
  end
(** json_export.c:65-71 *)
with export_items (fuel : nat) (pretty : bool) (deep : nat) (l : list Z) : res (list Z * list Z) :=
  match fuel with
  | O => UB
  | S f =>
    do (e, r) <- json_read_end JSON_ARRAY_END l;
    if (e : bool) then Ok ([], r)
    else do (x, r1) <- export f pretty deep r;
         do last <- json_is JSON_ARRAY_END r1;
         do (xs, r2) <- export_items f pretty deep r1;
         Ok (x ++ (if (last : bool) then [] else [44; 32]) ++ xs, r2)
  end
(** json_export.c:87-101 and 108-118 *)
with export_fields (fuel : nat) (pretty : bool) (deep : nat) (l : list Z) : res (list Z * list Z) :=
  match fuel with
  | O => UB
  | S f =>
    do (e, r) <- json_read_end JSON_OBJ_END l;
    if (e : bool) then Ok ([], r)
    else do (k, r0) <- export f pretty (S deep) r;
         do (x, r1) <- export f pretty (S deep) r0;
         do last <- json_is JSON_OBJ_END r1;
         do (xs, r2) <- export_fields f pretty deep r1;
         Ok (indent pretty (S deep) ++ k ++ [58; 32] ++ x ++ obj_sep pretty last ++ xs, r2)
  end.
(** json_export.c:129-139 json_export and json_export_pretty *)
Definition json_export (pretty : bool) (l : list Z) : res (list Z * list Z) := export (length l) pretty 0 l.
End Export.

(** ** json_parser.c *)
(** json_parser.c:45-51 *)
Inductive jstate := SValue | SArrayNext | SMapKey | SMapNext.
(** json_parser.c:68-76 json_next: the byte at the new position and the new position *)
Definition json_next (l : list Z) : res (Z * list Z) :=
  match skip_spaces l with
  | [] => Err
  | b :: r => Ok (b, b :: r)
  end.
(** json_parser.c:78-91 json_keyword: strncasecmp *)
Definition json_keyword (name l : list Z) : res (list Z) :=
  if (length name <=? length l)%nat && bytes_eqb (map tolower (firstn (length name) l)) name
  then Ok (skipn (length name) l) else Err.
(** json_parser.c:100-122 the loop of json_string_read; the position is then at the end quote *)
Fixpoint string_loop (fuel : nat) (q : Z) (slash unesc : bool) (l : list Z) : res (bool * list Z) :=
  match fuel with
  | O => UB
  | S f =>
    match l with
    | [] => Err
    | c :: r =>
      if c =? q then
        if slash then string_loop f q false unesc r else Ok (unesc, l)
      else if c =? 10 then Err
      else
        let slash' := if c =? 92 then negb slash else false in
        let unesc' := if c =? 92 then true else unesc in
        do (u, r') <- utf8_next l;
        match u with None => Err | Some _ => string_loop f q slash' unesc' r' end
    end
  end.
(** json_parser.c:93-126 json_string_read: the string, if it has to be unescaped, and the position
    behind the end quote *)
Definition json_string_read (q : Z) (l : list Z) : res (list Z * bool * list Z) :=
  let start := tl l in
  do (u, r) <- string_loop (S (length start)) q false false start;
  Ok (firstn (length start - length r) start, u, tl r).
(** json_parser.c:200-203 and 370-373; encode.h:62-87: what is written for a string *)
Definition write_string (s : list Z) (unesc : bool) : res (list Z) :=
  if unesc then do x <- unescape false s; Ok (json_write_wide x) else Ok (json_write_raw s).
Section Parse.
Variable sd : list Z -> option (Z * list Z).
(** json_parser.c:148-162 the loop of json_integer_read; inr: read_as_double *)
Fixpoint int_loop (v : Z) (l : list Z) : res ((Z * list Z) + unit) :=
  match l with
  | [] => Ok (inl (v, []))
  | b :: r =>
    if (b =? 46) || (b =? 101) || (b =? 69) then Ok (inr tt)
    else if negb (is_digit b) then Ok (inl (v, l))
    else do v' <- mul_add64 v (b - 48); int_loop v' r
  end.
(** negation of a double: the sign bit *)
Definition neg_real (bits : Z) : Z := if bits <? 2 ^ 63 then bits + 2 ^ 63 else bits - 2 ^ 63.
(** json_parser.c:138-188 json_integer_read and json_integer: the bytes written and the new position *)
Definition json_integer (l : list Z) : res (list Z * list Z) :=
  let minus := match l with 45 :: _ => true | _ => false end in
  let start := if minus then tl l else l in
  do x <- int_loop 0 start;
  match x with
  | inl (v, r) => Ok (json_write_integer (if minus then - v else v), r)
  | inr _ =>
    match sd start with
    | None => Err
    | Some (b, r) => Ok (json_write_real (if minus then neg_real b else b), r)
    end
  end.
(** json_parser.c:190-236 json_const, [b] is the byte at the position *)
Definition json_const (b : Z) (l : list Z) : res (list Z * list Z) :=
  if (b =? 34) || (b =? 39) then
    do (su, r) <- json_string_read b l;
    do w <- write_string (fst su) (snd su); Ok (w, r)
  else if (b =? 110) || (b =? 78) then do r <- json_keyword lit_null l; Ok ([JSON_NULL], r)
  else if (b =? 116) || (b =? 84) then do r <- json_keyword lit_true l; Ok (json_write_bool true, r)
  else if (b =? 102) || (b =? 70) then do r <- json_keyword lit_false l; Ok (json_write_bool false, r)
  else if is_digit b || (b =? 46) || (b =? 45) then json_integer l
  else Err.
(** json_parser.c:298-402 one iteration of the loop of json_parse for the state on the top of the
    stack: the states pushed (the first one is the top), the bytes written, the new position *)
Definition step (s : jstate) (l : list Z) : res (list jstate * list Z * list Z) :=
  do (b, l1) <- json_next l;
  match s with
  | SValue =>
    if b =? 91 then
      do (b2, l2) <- json_next (tl l1);
      if b2 =? 93 then Ok ([], [JSON_ARRAY; JSON_ARRAY_END], tl l2)
      else Ok ([SValue; SArrayNext], [JSON_ARRAY], l2)
    else if b =? 123 then
      do (b2, l2) <- json_next (tl l1);
      if b2 =? 125 then Ok ([], [JSON_OBJ; JSON_OBJ_END], tl l2)
      else Ok ([SMapKey], [JSON_OBJ], l2)
    else do (w, r) <- json_const b l1; Ok ([], w, r)
  | SArrayNext =>
    if b =? 44 then Ok ([SValue; SArrayNext], [], tl l1)
    else if b =? 93 then Ok ([], [JSON_ARRAY_END], tl l1)
    else Err
  | SMapKey =>
    if negb ((b =? 34) || (b =? 39)) then Err
    else
      do (su, r) <- json_string_read b l1;
      do w <- write_string (fst su) (snd su);
      do (b2, l2) <- json_next r;
      if negb (b2 =? 58) then Err else Ok ([SValue; SMapNext], w, tl l2)
  | SMapNext =>
    if b =? 44 then Ok ([SMapKey], [], tl l1)
    else if b =? 125 then Ok ([], [JSON_OBJ_END], tl l1)
    else Err
  end.
(** json_parser.c:298-402 the loop of json_parse *)
Fixpoint parse_loop (fuel : nat) (st : list jstate) (l out : list Z) : res (list Z * list Z) :=
  match st with
  | [] => Ok (out, l)
  | s :: st' =>
    match fuel with
    | O => UB
    | S f => do (pw, l') <- step s l; parse_loop f (fst pw ++ st') l' (out ++ snd pw)
    end
  end.
(** json_parser.c:238-403 json_parse: the binary form and the text that is not read.  The number of
    iterations is bounded by twice the size of the text plus one *)
Definition json_parse (l : list Z) : res (list Z * list Z) := parse_loop (2 * length l + 1) [SValue] l [].
End Parse.
