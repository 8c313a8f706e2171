(** Model of runtime/lib/utf8.h, vm/value/like.c and the string functions of vm/func/fn_string.c.
    A pointer into a string is the list of bytes from it to the end.  Reading a byte at the end
    and moving behind the end are undefined behaviour. *)
From Verif Require Import Base.
Local Open Scope Z_scope.

(** utf8.h:14-26 utf8_sizeof *)
Definition utf8_sizeof (b : Z) : Z :=
  if Z.land b 128 =? 0 then 1
  else if Z.land b 224 =? 192 then 2
  else if Z.land b 240 =? 224 then 3
  else if Z.land b 248 =? 240 then 4
  else -1.
(** (b & 0xC0) == 0x80 *)
Definition is_cont (b : Z) : bool := Z.land b 192 =? 128.
(** a byte at a position, only evaluated after the test of the size *)
Definition at_ (s : list Z) (i : nat) : Z := nth i s 0.
(** a && b of C: b is not evaluated if a is false *)
Definition band (a : bool) (k : res bool) : res bool := if a then k else Ok false.
(** the test of a continuation byte at an index (utf8.h:38-66): a read beyond the end is undefined *)
Definition cont_at (s : list Z) (i : nat) : res bool := match nth_error s i with Some b => Ok (is_cont b) | None => UB end.
(** utf8.h:28-76 utf8_next: the code point or None for -1, and the new position.  The bytes behind
    the first one are read only if the test of the size before has succeeded *)
Definition utf8_next (s : list Z) : res (option Z * list Z) :=
  match s with
  | [] => UB
  | b :: _ =>
    let n := Z.of_nat (length s) in
    if Z.land b 128 =? 0 then Ok (Some b, skipn 1 s) else
    do c2 <- band (Z.land b 224 =? 192) (band (2 <=? n) (cont_at s 1));
    if (c2 : bool) then
      let u := Z.lor (Z.shiftl (Z.land b (Z.lnot 192)) 6) (Z.land (at_ s 1) (Z.lnot 128)) in
      if u <? 128 then Ok (None, s) else Ok (Some u, skipn 2 s) else
    do c3 <- band (Z.land b 240 =? 224) (band (3 <=? n) (do c <- cont_at s 1; band c (cont_at s 2)));
    if (c3 : bool) then
      let u := Z.lor (Z.lor (Z.shiftl (Z.land b (Z.lnot 224)) 12) (Z.shiftl (Z.land (at_ s 1) (Z.lnot 128)) 6)) (Z.land (at_ s 2) (Z.lnot 128)) in
      if u <? 2048 then Ok (None, s) else Ok (Some u, skipn 3 s) else
    do c4 <- band (Z.land b 248 =? 240) (band (4 <=? n) (do c <- cont_at s 1; band c (do c' <- cont_at s 2; band c' (cont_at s 3))));
    if (c4 : bool) then
      let u := Z.lor (Z.lor (Z.lor (Z.shiftl (Z.land b (Z.lnot 240)) 18) (Z.shiftl (Z.land (at_ s 1) (Z.lnot 128)) 12)) (Z.shiftl (Z.land (at_ s 2) (Z.lnot 128)) 6)) (Z.land (at_ s 3) (Z.lnot 128)) in
      if u <? 65536 then Ok (None, s) else Ok (Some u, skipn 4 s)
    else Ok (None, s)
  end.
(** the loops of lex.c:387-405 and json_parser.c:104-121 without the quote and the escapes: a
    string is valid if utf8_next never returns -1 *)
Fixpoint utf8_valid (fuel : nat) (s : list Z) : res bool :=
  match fuel with
  | O => UB
  | S f => match s with
           | [] => Ok true
           | _ => do (u, s') <- utf8_next s; match u with None => Ok false | Some _ => utf8_valid f s' end
           end
  end.
(** utf8.h:92-101 utf8_strlen *)
Definition utf8_strlen (s : list Z) : Z := Z.of_nat (length (filter (fun b => negb (is_cont b)) s)).
(** the bytes of the character at the position and the position behind it: utf8_sizeof( *pos ),
    pos += size (utf8.h:78-82 utf8_forward) *)
Definition take_char (s : list Z) : res (list Z * list Z) :=
  match s with
  | [] => UB
  | b :: _ => let n := utf8_sizeof b in
              if (n <? 0) || (Z.of_nat (length s) <? n) then UB else Ok (firstn (Z.to_nat n) s, skipn (Z.to_nat n) s)
  end.
(** utf8.h:78-82 utf8_forward *)
Definition utf8_forward (s : list Z) : res (list Z) := do (_, r) <- take_char s; Ok r.
(** utf8.h:103-109 utf8_at; also the loop of fn_substr *)
Fixpoint utf8_at (s : list Z) (n : nat) : res (list Z) :=
  match n with O => Ok s | S n' => do r <- utf8_forward s; utf8_at r n' end.
(** utf8.h:84-90 utf8_backward: [rs] are the bytes up to the position, the last one first; the
    character found and the bytes before it *)
Fixpoint utf8_backward (rs acc : list Z) : res (list Z * list Z) :=
  match rs with
  | [] => UB
  | b :: r => if is_cont b then utf8_backward r (b :: acc) else Ok (b :: acc, r)
  end.
Fixpoint bytes_eqb (a b : list Z) : bool :=
  match a, b with
  | [], [] => true
  | x :: a', y :: b' => (x =? y) && bytes_eqb a' b'
  | _, _ => false
  end.

(** ** like.c *)
(** like.c:47-48 *)
Fixpoint like_skip (p : list Z) : list Z :=
  match p with
  | b :: p' => if (b =? 37) || (b =? 95) then like_skip p' else p
  | [] => []
  end.
(** like.c:61-71: the position behind the first occurrence of the character *)
Fixpoint like_find (fuel : nat) (c : list Z) (s : list Z) : res (option (list Z)) :=
  match fuel with
  | O => UB
  | S f =>
    match s with
    | [] => Ok None
    | _ => do (d, r) <- take_char s; if bytes_eqb c d then Ok (Some r) else like_find f c r
    end
  end.
(** like.c:31-96: the loop *)
Fixpoint like_loop (fuel : nat) (s p : list Z) : res bool :=
  match fuel with
  | O => UB
  | S f =>
    match p with
    | [] => Ok (match s with [] => true | _ => false end)
    | b :: p' =>
      if b =? 95 then
        match s with [] => Ok false | _ => do r <- utf8_forward s; like_loop f r p' end
      else if b =? 37 then
        match like_skip p with
        | [] => Ok true
        | b2 :: q =>
          let q2 := if b2 =? 92 then q else b2 :: q in
          match q2 with
          | [] => Ok false
          | _ =>
            do (c, q3) <- take_char q2;
            do m <- like_find (S (length s)) c s;
            match m with None => Ok false | Some r => like_loop f r q3 end
          end
        end
      else
        let p2 := if b =? 92 then p' else p in
        match s with
        | [] => Ok false
        | _ =>
          do (d, r) <- take_char s;
          do (c, q) <- take_char p2;
          if bytes_eqb c d then like_loop f r q else Ok false
        end
    end
  end.
(** like.c:19-97 value_like on two strings *)
Definition value_like (s p : list Z) : res bool := like_loop (S (length p)) s p.

(** ** fn_string.c *)
Definition s32 (v : Z) : Z := sx 4 (v mod 2 ^ 32). (* conversion to int *)
(** fn_string.c:35-37 fn_length of a string *)
Definition fn_length (s : list Z) : Z := utf8_strlen s.
(** fn_string.c:65-77 fn_octet_length of a string *)
Definition fn_octet_length (s : list Z) : Z := Z.of_nat (length s).
(** fn_string.c:183-232 fn_substr; [count] is None with two arguments.  The result is the bytes
    between result.pos and result.end *)
Definition fn_substr (s : list Z) (pos : Z) (count : option Z) : res (list Z) :=
  if pos =? 0 then Err
  else
    let pos := pos - 1 in
    let size := s32 (utf8_strlen s) in
    if size <=? pos then Err
    else
      let sub count :=
        do a <- utf8_at s (Z.to_nat (s32 pos));
        do b <- utf8_at a (Z.to_nat count);
        Ok (firstn (length a - length b) a) in
      match count with
      | None => sub (s32 (size - pos))
      | Some c => let count := s32 c in if size <? pos + count then Err else sub count
      end.
(** fn_string.c:234-276 fn_strpos *)
Fixpoint strpos_loop (fuel : nat) (n : Z) (s sub : list Z) : res Z :=
  match fuel with
  | O => UB
  | S f =>
    match s with
    | [] => Ok 0
    | _ =>
      if Z.of_nat (length s) <? Z.of_nat (length sub) then Ok 0
      else if bytes_eqb sub (firstn (length sub) s) then Ok n
      else do r <- utf8_forward s; strpos_loop f (n + 1) r sub
    end
  end.
Definition fn_strpos (s sub : list Z) : res Z :=
  match sub with [] => Ok 0 | _ => strpos_loop (S (length s)) 1 s sub end.
(** fn_string.c:278-332 fn_replace *)
Fixpoint replace_loop (fuel : nat) (s from to_ : list Z) : res (list Z) :=
  match fuel with
  | O => UB
  | S f =>
    match s with
    | [] => Ok []
    | _ =>
      if Z.of_nat (length s) <? Z.of_nat (length from) then Ok s
      else if bytes_eqb from (firstn (length from) s) then
        do o <- replace_loop f (skipn (length from) s) from to_; Ok (to_ ++ o)
      else
        do (c, r) <- take_char s; do o <- replace_loop f r from to_; Ok (c ++ o)
    end
  end.
Definition fn_replace (s from to_ : list Z) : res (list Z) :=
  match from with [] => Err | _ => replace_loop (S (length s)) s from to_ end.
(** fn_string.c:343-352, 372-381: is the character in the filter *)
Fixpoint in_filter (fuel : nat) (c : list Z) (flt : list Z) : res bool :=
  match fuel with
  | O => UB
  | S f =>
    match flt with
    | [] => Ok false
    | _ => do (d, r) <- take_char flt; if bytes_eqb c d then Ok true else in_filter f c r
    end
  end.
(** fn_string.c:334-358 str_ltrim *)
Fixpoint ltrim_loop (fuel : nat) (s flt : list Z) : res (list Z) :=
  match fuel with
  | O => UB
  | S f =>
    match s with
    | [] => Ok []
    | _ => do (c, r) <- take_char s; do m <- in_filter (S (length flt)) c flt; if m then ltrim_loop f r flt else Ok s
    end
  end.
(** fn_string.c:360-387 str_rtrim: the position moves backwards; a size that is not the size of
    the character found backwards (a string that is not valid) is counted as undefined *)
Fixpoint rtrim_loop (fuel : nat) (rs flt : list Z) : res (list Z) :=
  match fuel with
  | O => UB
  | S f =>
    match rs with
    | [] => Ok []
    | _ =>
      do (c, r) <- utf8_backward rs [];
      if utf8_sizeof (nth 0 c 0) =? Z.of_nat (length c) then
        do m <- in_filter (S (length flt)) c flt; if m then rtrim_loop f r flt else Ok rs
      else UB
    end
  end.
(** fn_string.c:389-426 trim *)
Definition fn_trim (left right : bool) (s flt : list Z) : res (list Z) :=
  do a <- (if left then ltrim_loop (S (length s)) s flt else Ok s);
  if right then do b <- rtrim_loop (S (length a)) (rev a) flt; Ok (rev b) else Ok a.
(** fn_string.c:113-146 fn_lower, 148-181 fn_upper: [f] is tolower or toupper of the C locale *)
Fixpoint case_loop (fuel : nat) (f : Z -> Z) (s : list Z) : res (list Z) :=
  match fuel with
  | O => UB
  | S n =>
    match s with
    | [] => Ok []
    | b :: _ => do (c, r) <- take_char s; do o <- case_loop n f r; Ok ((if Z.of_nat (length c) =? 1 then [f b] else c) ++ o)
    end
  end.
Definition tolower (c : Z) : Z := if (65 <=? c) && (c <=? 90) then c + 32 else c.
Definition toupper (c : Z) : Z := if (97 <=? c) && (c <=? 122) then c - 32 else c.
Definition fn_lower (s : list Z) : res (list Z) := case_loop (S (length s)) tolower s.
Definition fn_upper (s : list Z) : res (list Z) := case_loop (S (length s)) toupper s.
