(** Model of the binary JSON format: amelie/runtime/json/json.h, json_op.h,
    json_compare.h.  A pointer into a buffer is the list of the bytes that
    remain after it.  Reading past the end of the buffer is [UB]. *)
From Verif Require Import Base.

(* json.h:14-40, the tag enumeration *)
Definition JSON_NULL := 0.
Definition JSON_TRUE := 1.
Definition JSON_FALSE := 2.
Definition JSON_REAL32 := 3.
Definition JSON_REAL64 := 4.
Definition JSON_INTV0 := 5.
Definition JSON_INTV31 := 37.
Definition JSON_INT8 := 38.
Definition JSON_INT16 := 39.
Definition JSON_INT32 := 40.
Definition JSON_INT64 := 41.
Definition JSON_STRINGV0 := 42.
Definition JSON_STRINGV31 := 74.
Definition JSON_STRING8 := 75.
Definition JSON_STRING16 := 76.
Definition JSON_STRING32 := 77.
Definition JSON_OBJ := 78.
Definition JSON_OBJ_END := 79.
Definition JSON_ARRAY := 80.
Definition JSON_ARRAY_END := 81.

Definition INT8_MAX := 127.
Definition INT16_MAX := 32767.
Definition INT32_MAX := 2147483647.
Definition INT64_MAX := 9223372036854775807.
Definition INT64_MIN := -9223372036854775808.

(* json.h:169-201 json_write_integer; the argument is converted to uint64_t *)
Definition json_write_integer (value : Z) : list Z :=
  let v := value mod 2 ^ 64 in
  if v <=? 31 then [JSON_INTV0 + v]
  else if v <=? INT8_MAX then JSON_INT8 :: le_enc 1 v
  else if v <=? INT16_MAX then JSON_INT16 :: le_enc 2 v
  else if v <=? INT32_MAX then JSON_INT32 :: le_enc 4 v
  else JSON_INT64 :: le_enc 8 v.

(* json.h:131-159 json_read_integer *)
Definition json_read_integer (l : list Z) : res (Z * list Z) :=
  do (t, r) <- rd_u8 l;
  if (JSON_INTV0 <=? t) && (t <=? JSON_INTV31) then Ok (t - JSON_INTV0, r)
  else if t =? JSON_INT8 then do (x, r') <- rd_n 1 r; Ok (sx 1 (le_dec x), r')
  else if t =? JSON_INT16 then do (x, r') <- rd_n 2 r; Ok (sx 2 (le_dec x), r')
  else if t =? JSON_INT32 then do (x, r') <- rd_n 4 r; Ok (sx 4 (le_dec x), r')
  else if t =? JSON_INT64 then do (x, r') <- rd_n 8 r; Ok (sx 8 (le_dec x), r')
  else Err.

(* json.h:268-299 json_write_raw (value not NULL); size is a uint32_t *)
Definition json_write_raw (s : list Z) : list Z :=
  let size := Z.of_nat (length s) in
  if size <=? 31 then (JSON_STRINGV0 + size) :: s
  else if size <=? INT8_MAX then JSON_STRING8 :: le_enc 1 size ++ s
  else if size <=? INT16_MAX then JSON_STRING16 :: le_enc 2 size ++ s
  else JSON_STRING32 :: le_enc 4 size ++ s.

(* json.h:341-348 json_write_string32 followed by the string bytes, the form
   produced by encode.h:76-89 encode_string_unescape and :138-152 encode_base64 *)
Definition json_write_wide (s : list Z) : list Z :=
  JSON_STRING32 :: le_enc 4 (Z.of_nat (length s)) ++ s.

(* json.h:222-248 json_read_raw; a negative size moves the pointer backwards *)
Definition json_read_raw (l : list Z) : res (list Z * list Z) :=
  do (t, r) <- rd_u8 l;
  do (size, r') <-
    (if (JSON_STRINGV0 <=? t) && (t <=? JSON_STRINGV31) then Ok (t - JSON_STRINGV0, r)
     else if t =? JSON_STRING8 then do (x, r') <- rd_n 1 r; Ok (sx 1 (le_dec x), r')
     else if t =? JSON_STRING16 then do (x, r') <- rd_n 2 r; Ok (sx 2 (le_dec x), r')
     else if t =? JSON_STRING32 then do (x, r') <- rd_n 4 r; Ok (sx 4 (le_dec x), r')
     else Err);
  if size <? 0 then UB else rd_n (Z.to_nat size) r'.

(* json.h:385-394 json_write_bool, :363-375 json_read_bool *)
Definition json_write_bool (b : bool) : list Z := if b then [JSON_TRUE] else [JSON_FALSE].
Definition json_read_bool (l : list Z) : res (bool * list Z) :=
  do (t, r) <- rd_u8 l;
  if t =? JSON_TRUE then Ok (true, r)
  else if t =? JSON_FALSE then Ok (false, r) else Err.

(* IEEE-754: a double is represented by its 64 bits.  FLT_MIN = 2^-126 and
   FLT_MAX = 2^128 - 2^104 written as doubles.  Positive doubles are ordered
   like their bit patterns. *)
Definition FLT_MIN_BITS := 4039728865751334912.  (* 0x3810000000000000 *)
Definition FLT_MAX_BITS := 5183643170566569984.  (* 0x47EFFFFFE0000000 *)

(* json.h:440 (value >= FLT_MIN && value <= FLT_MAX) *)
Definition real_fits_float (bits : Z) : bool :=
  (FLT_MIN_BITS <=? bits) && (bits <=? FLT_MAX_BITS).

(* json.h:443 the C conversion double -> float, round to nearest even, for a
   positive double in the normal float range: drop 29 mantissa bits and move
   the exponent bias from 1023 to 127 *)
Definition float_of_double (bits : Z) : Z :=
  let q := bits / 2 ^ 29 in
  let r := bits mod 2 ^ 29 in
  let up := (2 ^ 28 <? r) || ((r =? 2 ^ 28) && Z.odd q) in
  (if up then q + 1 else q) - 896 * 2 ^ 23.

(* json.h:416 the (exact) C conversion float -> double on the same range *)
Definition double_of_float (f : Z) : Z := (f + 896 * 2 ^ 23) * 2 ^ 29.

(* json.h:436-451 json_write_real *)
Definition json_write_real (bits : Z) : list Z :=
  if real_fits_float bits
  then JSON_REAL32 :: le_enc 4 (float_of_double bits)
  else JSON_REAL64 :: le_enc 8 bits.

(* json.h:410-426 json_read_real *)
Definition json_read_real (l : list Z) : res (Z * list Z) :=
  do (t, r) <- rd_u8 l;
  if t =? JSON_REAL32 then do (x, r') <- rd_n 4 r; Ok (double_of_float (le_dec x), r')
  else if t =? JSON_REAL64 then do (x, r') <- rd_n 8 r; Ok (le_dec x, r')
  else Err.

(* json_op.h:20-66 one iteration of json_skip: change of the nesting level and
   the new position *)
Definition skip_step (l : list Z) : res (Z * list Z) :=
  match l with
  | [] => UB
  | t :: r =>
    if (t =? JSON_TRUE) || (t =? JSON_FALSE) then
      do (_, r') <- json_read_bool l; Ok (0, r')
    else if t =? JSON_NULL then Ok (0, r)
    else if (t =? JSON_REAL32) || (t =? JSON_REAL64) then
      do (_, r') <- json_read_real l; Ok (0, r')
    else if (JSON_INTV0 <=? t) && (t <=? JSON_INT64) then
      do (_, r') <- json_read_integer l; Ok (0, r')
    else if (JSON_STRINGV0 <=? t) && (t <=? JSON_STRING32) then
      do (_, r') <- json_read_raw l; Ok (0, r')
    else if (t =? JSON_ARRAY) || (t =? JSON_OBJ) then Ok (1, r)
    else if (t =? JSON_ARRAY_END) || (t =? JSON_OBJ_END) then Ok (-1, r)
    else Err
  end.

(* json_op.h:14-68 json_skip, do { ... } while (level > 0).  Every iteration
   consumes at least one byte, so [length l] iterations are never exceeded. *)
Fixpoint skip_loop (fuel : nat) (level : Z) (l : list Z) : res (list Z) :=
  match fuel with
  | O => UB
  | S f =>
    do (d, r) <- skip_step l;
    if 0 <? level + d then skip_loop f (level + d) r else Ok r
  end.
Definition json_skip (l : list Z) : res (list Z) := skip_loop (length l) 0 l.

(* json.h:472-503 / 530-545 object and array markers *)
Definition json_read_marker (tag : Z) (l : list Z) : res (list Z) :=
  do (t, r) <- rd_u8 l; if t =? tag then Ok r else Err.
Definition json_read_end (tag : Z) (l : list Z) : res (bool * list Z) :=
  do (t, r) <- rd_u8 l; if t =? tag then Ok (true, r) else Ok (false, l).
Definition json_is (tag : Z) (l : list Z) : res bool :=
  do (t, _) <- rd_u8 l; Ok (t =? tag).

(* json_op.h:78-93 json_obj_find; on success the position is the value *)
Fixpoint obj_find_loop (fuel : nat) (name : list Z) (l : list Z) : res (bool * list Z) :=
  match fuel with
  | O => UB
  | S f =>
    do (e, r) <- json_read_end JSON_OBJ_END l;
    if (e : bool) then Ok (false, r)
    else
      do (key, r1) <- json_read_raw r;
      if bytes_eqb key name then Ok (true, r1)
      else do r2 <- json_skip r1; obj_find_loop f name r2
  end.
Definition json_obj_find (name : list Z) (l : list Z) : res (bool * list Z) :=
  do n <- json_is JSON_NULL l;
  if (n : bool) then Ok (false, l)
  else do r <- json_read_marker JSON_OBJ l; obj_find_loop (length l) name r.

(* json_op.h:143-158 json_array_find *)
Fixpoint array_find_loop (fuel : nat) (position i : Z) (l : list Z) : res (bool * list Z) :=
  match fuel with
  | O => UB
  | S f =>
    do (e, r) <- json_read_end JSON_ARRAY_END l;
    if (e : bool) then Ok (false, r)
    else if i =? position then Ok (true, r)
    else do r2 <- json_skip r; array_find_loop f position (i + 1) r2
  end.
Definition json_array_find (position : Z) (l : list Z) : res (bool * list Z) :=
  do n <- json_is JSON_NULL l;
  if (n : bool) then Ok (false, l)
  else do r <- json_read_marker JSON_ARRAY l; array_find_loop (length l) position 0 r.

(* json_op.h:183-196 json_array_size *)
Fixpoint array_size_loop (fuel : nat) (count : Z) (l : list Z) : res Z :=
  match fuel with
  | O => UB
  | S f =>
    do (e, r) <- json_read_end JSON_ARRAY_END l;
    if (e : bool) then Ok count
    else do r2 <- json_skip r; array_size_loop f (count + 1) r2
  end.
Definition json_array_size (l : list Z) : res Z :=
  do n <- json_is JSON_NULL l;
  if (n : bool) then Ok 0
  else do r <- json_read_marker JSON_ARRAY l; array_size_loop (length l) 0 r.

(* json_op.h:129-141 json_obj_size *)
Fixpoint obj_size_loop (fuel : nat) (count : Z) (l : list Z) : res Z :=
  match fuel with
  | O => UB
  | S f =>
    do (e, r) <- json_read_end JSON_OBJ_END l;
    if (e : bool) then Ok count
    else do r1 <- json_skip r; do r2 <- json_skip r1; obj_size_loop f (count + 1) r2
  end.
Definition json_obj_size (l : list Z) : res Z :=
  do r <- json_read_marker JSON_OBJ l; obj_size_loop (length l) 0 r.

(* runtime/lib/misc.h:20-24 compare_int64 *)
Definition compare_int64 (a b : Z) : Z :=
  (if b <? a then 1 else 0) - (if a <? b then 1 else 0).

(* runtime/lib/misc.h:38-42 compare_double on bit patterns: NaN compares equal
   to everything, -0.0 equals 0.0 *)
Definition dbl_is_nan (bits : Z) : bool :=
  2047 * 2 ^ 52 <? bits mod 2 ^ 63.
Definition dbl_key (bits : Z) : Z :=
  if bits <? 2 ^ 63 then bits else 2 ^ 63 - bits.
Definition compare_double (a b : Z) : Z :=
  if dbl_is_nan a || dbl_is_nan b then 0 else compare_int64 (dbl_key a) (dbl_key b).

(* runtime/base/str.h:169-183 str_compare_fn.  memcmp is a libc function: C only
   fixes the sign of its result; [mag x y] is the value it returns when the
   first differing bytes are x and y. *)
Section MemCmp.
Variable mag : Z -> Z -> Z.

Fixpoint memcmp (a b : list Z) : Z :=
  match a, b with
  | x :: a', y :: b' => if x =? y then memcmp a' b' else mag x y
  | _, _ => 0
  end.

Definition str_compare_fn (a b : list Z) : Z :=
  let asz := Z.of_nat (length a) in
  let bsz := Z.of_nat (length b) in
  let size := Z.to_nat (if asz <? bsz then asz else bsz) in
  let rc := memcmp (firstn size a) (firstn size b) in
  if negb (rc =? 0) then rc
  else (if bsz <? asz then 1 else 0) - (if asz <? bsz then 1 else 0).

(* json_compare.h:46-149 one iteration of json_compare (line numbers of that
   file): Ok (inl rc) = return rc; Ok (inr (d, a, b)) = continue with the level
   changed by d.  An unknown tag falls out of the switch without moving
   (json_compare.h:53-144 has no default case): the loop then either ends with 0
   or spins forever, which is UB in the model. *)
Definition in_rng (lo hi t : Z) : bool := (lo <=? t) && (t <=? hi).
Definition compare_step (level : Z) (a b : list Z)
  : res (Z + (Z * list Z * list Z)) :=
  match a, b with
  | ta :: ra, tb :: rb =>
    let differ := Ok (inl (compare_int64 ta tb)) in
    let cont rc d a' b' := if negb (rc =? 0) then Ok (inl rc) else Ok (inr (d, a', b')) in
    if in_rng JSON_TRUE JSON_FALSE ta then
      if negb (in_rng JSON_TRUE JSON_FALSE tb) then differ
      else do (va, a') <- json_read_bool a; do (vb, b') <- json_read_bool b;
           cont (compare_int64 (Z.b2z va) (Z.b2z vb)) 0 a' b'
    else if ta =? JSON_NULL then
      if negb (tb =? JSON_NULL) then differ
      else do a' <- json_skip a; do b' <- json_skip b; cont 0 0 a' b'
    else if in_rng JSON_REAL32 JSON_REAL64 ta then
      if negb (in_rng JSON_REAL32 JSON_REAL64 tb) then differ
      else do (va, a') <- json_read_real a; do (vb, b') <- json_read_real b;
           cont (compare_double va vb) 0 a' b'
    else if in_rng JSON_INTV0 JSON_INT64 ta then
      if negb (in_rng JSON_INTV0 JSON_INT64 tb) then differ
      else do (va, a') <- json_read_integer a; do (vb, b') <- json_read_integer b;
           cont (compare_int64 va vb) 0 a' b'
    else if in_rng JSON_STRINGV0 JSON_STRING32 ta then
      if negb (in_rng JSON_STRINGV0 JSON_STRING32 tb) then differ
      else do (va, a') <- json_read_raw a; do (vb, b') <- json_read_raw b;
           cont (str_compare_fn va vb) 0 a' b'
    else if ta =? JSON_ARRAY then
      if negb (tb =? JSON_ARRAY) then differ else cont 0 1 ra rb
    else if ta =? JSON_ARRAY_END then
      if negb (tb =? JSON_ARRAY_END) then differ else cont 0 (-1) ra rb
    else if ta =? JSON_OBJ then
      if negb (tb =? JSON_OBJ) then differ else cont 0 1 ra rb
    else if ta =? JSON_OBJ_END then
      if negb (tb =? JSON_OBJ_END) then differ else cont 0 (-1) ra rb
    else if 0 <? level then UB else Ok (inl 0)
  | _, _ => UB
  end.

(* json_compare.h:45-149 json_compare *)
Fixpoint compare_loop (fuel : nat) (level : Z) (a b : list Z) : res Z :=
  match fuel with
  | O => UB
  | S f =>
    do s <- compare_step level a b;
    match s with
    | inl rc => Ok rc
    | inr (d, a', b') => if 0 <? level + d then compare_loop f (level + d) a' b' else Ok 0
    end
  end.
Definition json_compare (a b : list Z) : res Z := compare_loop (length a) 0 a b.
End MemCmp.
