(** Model of the rows of a table: amelie/db/row/row.h, db/heap/heap_row.h, vm/value/value_data.h,
    vm/value/row.c, db/row/compare.h, vm/value/value_hash.h, runtime/lib/hash.h, and of the readers of
    vm/vm/vm.c:1638-1754.

    A row is the list of its bytes; a pointer into it is an offset.  A write or read outside of the
    row is [UB], like [abort ()], an int overflow and a value of another type than its column. *)
From Verif Require Import Base JsonModel.

(** db/row/type.h:14-36 the types of columns *)
Inductive ctype := TBool | TInt | TDouble | TString | TJson | TDate | TTimestamp | TInterval | TVector | TUuid.
(** db/row/column.h:17-28 Column (type, type_size), constraints.h:23-31 Constraints (as_identity,
    not_null); the order of a column is its position *)
Record column := mkcol { c_type : ctype; c_size : Z; c_identity : bool; c_not_null : bool }.

(** vm/value/value.h:16-42 Value.  [DInt] is the field [integer] of a bool, int, date or timestamp.
    A double is its 64 bits, an element of a vector its 32 bits *)
Inductive dval :=
| DNull
| DInt (z : Z)
| DDouble (bits : Z)
| DString (s : list Z)
| DJson (s : list Z)
| DInterval (m d us : Z)
| DVector (v : list Z)
| DUuid (a b : Z)
| DRef (i : nat).

(** ** conversions of float and double in C (round to nearest even) *)
Definition rne (num den : Z) : Z :=
  let q := num / den in let r := num mod den in
  if (den <? 2 * r) || ((den =? 2 * r) && Z.odd q) then q + 1 else q.
Definition flt_of_dbl (bits : Z) : Z :=
  let s := bits / 2 ^ 63 in let m := bits mod 2 ^ 63 in
  s * 2 ^ 31 +
  (if 2047 * 2 ^ 52 <? m then 2143289344 + (m / 2 ^ 29) mod 2 ^ 22                     (* not a number *)
   else if m <? FLT_MIN_BITS then
     (let e := m / 2 ^ 52 in if e =? 0 then 0 else rne (2 ^ 52 + m mod 2 ^ 52) (2 ^ (926 - e)))
   else Z.min (rne m (2 ^ 29) - 896 * 2 ^ 23) 2139095040).
Definition dbl_of_flt (f : Z) : Z :=
  let s := f / 2 ^ 31 in let m := f mod 2 ^ 31 in
  s * 2 ^ 63 +
  (if 2139095040 <? m then (2047 * 2 ^ 52) + 2 ^ 51 + (m mod 2 ^ 22) * 2 ^ 29
   else if m =? 2139095040 then 2047 * 2 ^ 52
   else if 2 ^ 23 <=? m then (m + 896 * 2 ^ 23) * 2 ^ 29
   else if m =? 0 then 0
   else let k := Z.log2 m in (k + 874) * 2 ^ 52 + (m - 2 ^ k) * 2 ^ (52 - k)).

(** ** memory *)
Definition zlen (l : list Z) : Z := Z.of_nat (length l).
Definition poke (mem : list Z) (off : Z) (bs : list Z) : res (list Z) :=
  if (0 <=? off) && (off + zlen bs <=? zlen mem)
  then Ok (firstn (Z.to_nat off) mem ++ bs ++ skipn (Z.to_nat off + length bs) mem) else UB.
(** the bytes from an offset *)
Definition at_ (mem : list Z) (off : Z) : res (list Z) :=
  if (0 <=? off) && (off <=? zlen mem) then Ok (skipn (Z.to_nat off) mem) else UB.
Definition load (mem : list Z) (off : Z) (n : nat) : res Z :=
  do l <- at_ mem off; do (x, _) <- rd_n n l; Ok (le_dec x).

(** ** row.h *)
(** the width of the size and of the offsets: row.h:32-38, :44-48, :57-63, :91-97 *)
Definition width (factor : Z) : nat := if factor =? 0 then 1%nat else if factor =? 1 then 2%nat else 4%nat.
(** row.h:18 size_factor: the two low bits of the first byte *)
Definition row_factor (row : list Z) : res Z := do b <- load row 0 1; Ok (b mod 4).
(** row.h:25-39 row_init *)
Definition row_init (row : list Z) (columns factor size : Z) : res (list Z) :=
  do r1 <- poke row 0 [factor mod 4];
  do r2 <- poke r1 1 (le_enc 2 columns);
  poke r2 3 (le_enc (width factor) size).
(** row.h:41-49 row_size *)
Definition row_size (row : list Z) : res Z := do f <- row_factor row; load row 3 (width f).
(** row.h:51-67 row_at, :69-73 row_column: [None] is NULL *)
Definition row_at (row : list Z) (col : Z) : res (option Z) :=
  do columns <- load row 1 2;
  if columns <=? col then Ok None else
  do f <- row_factor row;
  do off <- load row (3 + Z.of_nat (width f) * (1 + col)) (width f);
  if off =? 0 then Ok None else Ok (Some off).
(** row.h:75-79 row_data *)
Definition row_data (row : list Z) (columns : Z) : res Z :=
  do f <- row_factor row; Ok (3 + (1 + columns) * (f + 1)).
(** row.h:88-98 row_set, :100-104 row_set_null *)
Definition row_set (row : list Z) (col off : Z) : res (list Z) :=
  do f <- row_factor row; poke row (3 + Z.of_nat (width f) * (1 + col)) (le_enc (width f) off).
(** row.h:126-146 row_measure: the size and the size factor *)
Definition UINT8_MAX := 255.
Definition UINT16_MAX := 65535.
Definition row_measure (columns data_size : Z) : res (Z * Z) :=
  let base := 3 + data_size in
  if INT32_MAX <? base + 4 * (1 + columns) then UB else
  let s1 := base + (1 + columns) in
  if UINT8_MAX <? s1 then
    let s2 := base + 2 * (1 + columns) in
    if UINT16_MAX <? s2 then Ok (base + 4 * (1 + columns), 3) else Ok (s2, 1)
  else Ok (s1, 0).

(** heap_row.h:14-22 row_allocate, :24-32 row_allocate_buf; the memory that the heap returns has any
    contents: [mem] gives it by its size *)
Definition row_allocate (mem : Z -> list Z) (columns data_size : Z) : res (list Z) :=
  do (size, factor) <- row_measure columns data_size;
  row_init (mem size) columns factor size.

(** ** value_data.h *)
(** json.h:110-122 json_size_of, :210-214 json_size_string *)
Definition json_size_of (v : Z) : Z :=
  if v <=? 31 then 1 else if v <=? INT8_MAX then 2 else if v <=? INT16_MAX then 3 else if v <=? INT32_MAX then 5 else 9.
Definition json_size_string (n : Z) : Z := json_size_of n + n.
(** vector.h:29-33 vector_size *)
Definition vector_size (v : list Z) : Z := 4 + Z.of_nat (length v) * 4.

(** value_data.h:22, :59 use reference *)
Definition deref (refs : list dval) (v : dval) : res dval :=
  match v with DRef i => match nth_error refs i with Some x => Ok x | None => UB end | _ => Ok v end.

(** value_data.h:14-50 value_data_size *)
Definition value_data_size (v : dval) (c : column) (refs : list dval) : res Z :=
  if c_identity c then Ok (c_size c) else
  do v <- deref refs v;
  match v with
  | DNull => Ok 0
  | _ =>
    if 0 <? c_size c then Ok (c_size c) else
    match c_type c, v with
    | TString, DString s => Ok (json_size_string (zlen s))
    | TJson, DJson s => Ok (zlen s)
    | TVector, DVector f => Ok (vector_size f)
    | _, _ => UB
    end
  end.

(** value_data.h:52-142 value_data_encode: the bytes written, [None] for NULL.  [identity] is a
    pointer, [None] is the NULL pointer (row.c:248) *)
Definition value_data_encode (v : dval) (c : column) (refs : list dval) (identity : option dval) : res (option (list Z)) :=
  do v <- deref refs v;
  do v <- (if c_identity c then match identity with Some i => Ok i | None => UB end else Ok v);
  match v with
  | DNull => if c_not_null c then Err else Ok None
  | _ =>
    match c_type c, v with
    | (TBool | TInt | TTimestamp | TDate), DInt z =>
        if c_size c =? 1 then Ok (Some (le_enc 1 z))
        else if c_size c =? 2 then Ok (Some (le_enc 2 z))
        else if c_size c =? 4 then Ok (Some (le_enc 4 z))
        else if c_size c =? 8 then Ok (Some (le_enc 8 z))
        else UB
    | TDouble, DDouble b =>
        if c_size c =? 4 then Ok (Some (le_enc 4 (flt_of_dbl b)))
        else if c_size c =? 8 then Ok (Some (le_enc 8 b)) else UB
    | TInterval, DInterval m d us => Ok (Some (le_enc 4 m ++ le_enc 4 d ++ le_enc 8 us))
    | TString, DString s => Ok (Some (json_write_raw s))
    | TJson, DJson s => Ok (Some s)
    | TVector, DVector f => Ok (Some (le_enc 4 (Z.of_nat (length f)) ++ flat_map (le_enc 4) f))
    | TUuid, DUuid a b => Ok (Some (le_enc 8 a ++ le_enc 8 b))
    | _, _ => UB
    end
  end.

(** ** row.c *)
(** row.c:27-32 the size of the data *)
Fixpoint data_size (cols : list column) (vals : list dval) (refs : list dval) : res Z :=
  match cols, vals with
  | [], _ => Ok 0
  | c :: cols', v :: vals' => do n <- value_data_size v c refs; do m <- data_size cols' vals' refs; Ok (n + m)
  | _ :: _, [] => UB
  end.
(** row.c:37-45 write the columns from position [i] on *)
Fixpoint create_loop (row : list Z) (pos : Z) (i : Z) (cols : list column) (vals : list dval) (refs : list dval) (identity : option dval) : res (list Z) :=
  match cols, vals with
  | [], _ => Ok row
  | c :: cols', v :: vals' =>
      do e <- value_data_encode v c refs identity;
      match e with
      | Some bs =>
          do row1 <- poke row pos bs;
          do row2 <- row_set row1 i pos;
          create_loop row2 (pos + zlen bs) (i + 1) cols' vals' refs identity
      | None =>
          do row2 <- row_set row i 0;
          create_loop row2 pos (i + 1) cols' vals' refs identity
      end
  | _ :: _, [] => UB
  end.
(** row.c:19-47 row_create *)
Definition row_create (mem : Z -> list Z) (cols : list column) (vals refs : list dval) (identity : option dval) : res (list Z) :=
  do size <- data_size cols vals refs;
  do row <- row_allocate mem (Z.of_nat (length cols)) size;
  do pos <- row_data row (Z.of_nat (length cols));
  create_loop row pos 0 cols vals refs identity.

(** vm.c:1638-1754 ctable_read*: the value of a column *)
Fixpoint read_floats (n : nat) (l : list Z) : res (list Z) :=
  match n with
  | O => Ok []
  | S n' => do (x, r) <- rd_n 4 l; do xs <- read_floats n' r; Ok (le_dec x :: xs)
  end.
Definition cell_read (c : column) (l : list Z) : res dval :=
  match c_type c with
  | TBool => do (x, _) <- rd_n 1 l; Ok (DInt (if sx 1 (le_dec x) =? 0 then 0 else 1))
  | TInt =>
      if c_size c =? 1 then do (x, _) <- rd_n 1 l; Ok (DInt (sx 1 (le_dec x)))
      else if c_size c =? 2 then do (x, _) <- rd_n 2 l; Ok (DInt (sx 2 (le_dec x)))
      else if c_size c =? 4 then do (x, _) <- rd_n 4 l; Ok (DInt (sx 4 (le_dec x)))
      else if c_size c =? 8 then do (x, _) <- rd_n 8 l; Ok (DInt (sx 8 (le_dec x)))
      else UB
  | TDate => do (x, _) <- rd_n 4 l; Ok (DInt (sx 4 (le_dec x)))
  | TTimestamp => do (x, _) <- rd_n 8 l; Ok (DInt (sx 8 (le_dec x)))
  | TDouble =>
      if c_size c =? 4 then do (x, _) <- rd_n 4 l; Ok (DDouble (dbl_of_flt (le_dec x)))
      else do (x, _) <- rd_n 8 l; Ok (DDouble (le_dec x))
  | TInterval =>
      do (m, l1) <- rd_n 4 l; do (d, l2) <- rd_n 4 l1; do (us, _) <- rd_n 8 l2;
      Ok (DInterval (sx 4 (le_dec m)) (sx 4 (le_dec d)) (sx 8 (le_dec us)))
  | TString => do (s, _) <- json_read_raw l; Ok (DString s)
  | TJson => do r <- json_skip l; Ok (DJson (firstn (length l - length r) l))
  | TVector => do (n, l1) <- rd_n 4 l; do v <- read_floats (Z.to_nat (le_dec n)) l1; Ok (DVector v)
  | TUuid => do (a, l1) <- rd_n 8 l; do (b, _) <- rd_n 8 l1; Ok (DUuid (le_dec a) (le_dec b))
  end.
Definition row_read (row : list Z) (c : column) (i : Z) : res dval :=
  do p <- row_at row i;
  match p with
  | None => Ok DNull
  | Some off => do l <- at_ row off; cell_read c l
  end.

(** row.c:194-217, :264-283 the bytes of a stored column *)
Definition cell_bytes (c : column) (l : list Z) : res (list Z) :=
  match c_type c with
  | TString | TJson => do r <- json_skip l; Ok (firstn (length l - length r) l)
  | TVector => do (n, _) <- rd_n 4 l; do (x, _) <- rd_n (Z.to_nat (4 + le_dec n * 4)) l; Ok x
  | _ => do (x, _) <- rd_n (Z.to_nat (c_size c)) l; Ok x
  end.
(** row.c:176-180, :238-242 take the next update if it is for the column *)
Definition take (i : Z) (ups : list (Z * dval)) : option dval * list (Z * dval) :=
  match ups with
  | (o, v) :: ups' => if o =? i then (Some v, ups') else (None, ups)
  | [] => (None, [])
  end.
(** row.c:167-220 row_update_prepare *)
Fixpoint update_size (row : list Z) (i : Z) (cols : list column) (ups : list (Z * dval)) : res Z :=
  match cols with
  | [] => Ok 0
  | c :: cols' =>
      let '(value, ups') := take i ups in
      do n <- match value with
              | Some v => value_data_size v c []
              | None =>
                  do p <- row_at row i;
                  match p with
                  | None => Ok 0
                  | Some off =>
                      if 0 <? c_size c then Ok (c_size c)
                      else do l <- at_ row off; do bs <- cell_bytes c l; Ok (zlen bs)
                  end
              end;
      do m <- update_size row (i + 1) cols' ups';
      Ok (n + m)
  end.
(** row.c:234-284 *)
Fixpoint update_loop (src row : list Z) (pos i : Z) (cols : list column) (ups : list (Z * dval)) : res (list Z) :=
  match cols with
  | [] => Ok row
  | c :: cols' =>
      let '(value, ups') := take i ups in
      do e <- match value with
              | Some v => value_data_encode v c [] None
              | None =>
                  do p <- row_at src i;
                  match p with
                  | None => Ok None
                  | Some off => do l <- at_ src off; do bs <- cell_bytes c l; Ok (Some bs)
                  end
              end;
      match e with
      | Some bs =>
          do row1 <- poke row pos bs;
          do row2 <- row_set row1 i pos;
          update_loop src row2 (pos + zlen bs) (i + 1) cols' ups'
      | None =>
          do row2 <- row_set row i 0;
          update_loop src row2 pos (i + 1) cols' ups'
      end
  end.
(** row.c:222-287 row_update (row.c:263 sets the offset before the bytes are copied; the order of
    the two writes does not matter) *)
Definition row_update (mem : Z -> list Z) (src : list Z) (cols : list column) (ups : list (Z * dval)) : res (list Z) :=
  do size <- update_size src 0 cols ups;
  do row <- row_allocate mem (Z.of_nat (length cols)) size;
  do pos <- row_data row (Z.of_nat (length cols));
  update_loop src row pos 0 cols ups.

(** emit_update.c:31-83 the updates sorted by the order of the column; a column that is updated twice
    is an error.  [None] is that error *)
Fixpoint sort_insert (u : Z * dval) (l : list (Z * dval)) : option (list (Z * dval)) :=
  match l with
  | [] => Some [u]
  | p :: l' =>
      if fst u =? fst p then None
      else if fst u <? fst p then Some (u :: l)
      else match sort_insert u l' with Some r => Some (p :: r) | None => None end
  end.
Fixpoint sort_updates (l acc : list (Z * dval)) : option (list (Z * dval)) :=
  match l with
  | [] => Some acc
  | u :: l' => match sort_insert u acc with Some acc' => sort_updates l' acc' | None => None end
  end.

(** ** keys *)
(** keys.h:16-22 Keys: the positions of the columns of a key *)
Definition keys := list nat.

(** row.c:117-161, :101-114 a column of the key: the value given or the least one *)
Definition key_bytes (c : column) (v : option dval) : res (list Z) :=
  match c_type c with
  | TString => match v with
               | Some (DString s) => Ok (json_write_raw s)
               | None => Ok (json_write_raw [])
               | Some _ => UB
               end
  | _ =>
    if c_size c =? 4 then
      match v with Some (DInt z) => Ok (le_enc 4 z) | None => Ok (le_enc 4 (-2147483648)) | Some _ => UB end
    else if c_size c =? 8 then
      match v with
      | Some (DInt z) => Ok (le_enc 8 z)
      | None => match c_type c with TTimestamp => Ok (le_enc 8 0) | _ => Ok (le_enc 8 INT64_MIN) end
      | Some _ => UB
      end
    else if c_size c =? 16 then
      match v with Some (DUuid a b) => Ok (le_enc 8 a ++ le_enc 8 b) | None => Ok (le_enc 8 0 ++ le_enc 8 0) | Some _ => UB end
    else UB
  end.
(** keys.h:90-100 keys_find_column: the order of the first key on a column *)
Fixpoint find_column (ks : keys) (col : nat) (order : nat) : option nat :=
  match ks with
  | [] => None
  | k :: ks' => if Nat.eqb k col then Some order else find_column ks' col (S order)
  end.
(** row.c:53-76 the size of the data *)
Fixpoint key_size (cols : list column) (ks : keys) (order : nat) (vals : list dval) : res Z :=
  match ks with
  | [] => Ok 0
  | k :: ks' =>
      do c <- match nth_error cols k with Some c => Ok c | None => UB end;
      do n <- (if 0 <? c_size c then Ok (c_size c)
               else match nth_error vals order with
                    | Some (DString s) => Ok (json_size_string (zlen s))
                    | Some _ => UB
                    | None => Ok (json_size_string 0)
                    end);
      do m <- key_size cols ks' (S order) vals;
      Ok (n + m)
  end.
(** row.c:81-162; [column->refs] is zero only for a column of no key *)
Fixpoint key_loop (row : list Z) (pos : Z) (i : nat) (cols : list column) (ks : keys) (vals : list dval) : res (list Z) :=
  match cols with
  | [] => Ok row
  | c :: cols' =>
      match find_column ks i 0 with
      | None => do row2 <- row_set row (Z.of_nat i) 0; key_loop row2 pos (S i) cols' ks vals
      | Some order =>
          do row1 <- row_set row (Z.of_nat i) pos;
          do bs <- key_bytes c (nth_error vals order);
          do row2 <- poke row1 pos bs;
          key_loop row2 (pos + zlen bs) (S i) cols' ks vals
      end
  end.
(** row.c:49-165 row_create_key; [vals] are the first values of the key *)
Definition row_create_key (mem : Z -> list Z) (cols : list column) (ks : keys) (vals : list dval) : res (list Z) :=
  do size <- key_size cols ks 0 vals;
  do row <- row_allocate mem (Z.of_nat (length cols)) size;
  do pos <- row_data row (Z.of_nat (length cols));
  key_loop row pos 0 cols ks vals.

(** a column that is not NULL: row_column of a NULL is a NULL pointer *)
Definition cell (row : list Z) (i : nat) : res (list Z) :=
  do p <- row_at row (Z.of_nat i);
  match p with None => UB | Some off => at_ row off end.

(** misc.h:14-30 compare_int32, compare_int64, compare_uint64 *)
Definition cmp3 (a b : Z) : Z := Z.b2z (b <? a) - Z.b2z (a <? b).
(** compare.h:14-48 compare *)
(** [mag]: see JsonModel.v, memcmp *)
Fixpoint compare (mag : Z -> Z -> Z) (cols : list column) (ks : keys) (a b : list Z) : res Z :=
  match ks with
  | [] => Ok 0
  | k :: ks' =>
      do c <- match nth_error cols k with Some c => Ok c | None => UB end;
      do la <- cell a k; do lb <- cell b k;
      do rc <-
        (if c_size c =? 8 then
           do (x, _) <- rd_n 8 la; do (y, _) <- rd_n 8 lb; Ok (cmp3 (sx 8 (le_dec x)) (sx 8 (le_dec y)))
         else if c_size c =? 4 then
           do (x, _) <- rd_n 4 la; do (y, _) <- rd_n 4 lb; Ok (cmp3 (sx 4 (le_dec x)) (sx 4 (le_dec y)))
         else if c_size c =? 16 then
           do (x1, la') <- rd_n 8 la; do (x2, _) <- rd_n 8 la';
           do (y1, lb') <- rd_n 8 lb; do (y2, _) <- rd_n 8 lb';
           Ok (if cmp3 (le_dec x1) (le_dec y1) =? 0 then cmp3 (le_dec x2) (le_dec y2) else cmp3 (le_dec x1) (le_dec y1))
         else
           do (x, _) <- json_read_raw la; do (y, _) <- json_read_raw lb; Ok (str_compare_fn mag x y));
      if rc =? 0 then compare mag cols ks' a b else Ok rc
  end.

(** ** hash *)
Definition u32 (z : Z) : Z := z mod 2 ^ 32.
(** hash.h:42-49 hash_murmur_scramble *)
Definition scramble (k : Z) : Z :=
  let k := u32 (k * 3432918353) in
  let k := Z.lor (u32 (Z.shiftl k 15)) (Z.shiftr k 17) in
  u32 (k * 461845907).
(** hash.h:57-64 the words *)
Fixpoint murmur_words (n : nat) (h : Z) (key : list Z) : Z * list Z :=
  match n with
  | O => (h, key)
  | S n' =>
      let h := Z.lxor h (scramble (le_dec (firstn 4 key))) in
      let h := Z.lor (u32 (Z.shiftl h 13)) (Z.shiftr h 19) in
      murmur_words n' (u32 (h * 5 + 3864292196)) (skipn 4 key)
  end.
(** hash.h:51-81 hash_murmur3_32; the loop :66-71 reads the remaining bytes, little endian *)
Definition murmur (key : list Z) (seed : Z) : Z :=
  let len := zlen key in
  let '(h, rest) := murmur_words (Z.to_nat (len / 4)) seed key in
  let h := Z.lxor h (scramble (le_dec rest)) in
  let h := Z.lxor h (u32 len) in
  let h := Z.lxor h (Z.shiftr h 16) in
  let h := u32 (h * 2246822507) in
  let h := Z.lxor h (Z.shiftr h 13) in
  let h := u32 (h * 3266489909) in
  Z.lxor h (Z.shiftr h 16).

(** row.h:106-124 row_hash *)
Fixpoint row_hash_from (h : Z) (cols : list column) (ks : keys) (row : list Z) : res Z :=
  match ks with
  | [] => Ok h
  | k :: ks' =>
      do c <- match nth_error cols k with Some c => Ok c | None => UB end;
      do l <- cell row k;
      do h' <- (if 0 <? c_size c then do (x, _) <- rd_n (Z.to_nat (c_size c)) l; Ok (murmur x h)
                else do (s, _) <- json_read_raw l; Ok (murmur s h));
      row_hash_from h' cols ks' row
  end.
Definition row_hash := row_hash_from 0.

(** value_hash.h:14-46 value_hash; [integer] of a TYPE_INT or TYPE_TIMESTAMP *)
Definition value_hash (v : dval) (c : column) (h : Z) : res Z :=
  match v with
  | DInt z => Ok (if c_size c =? 4 then murmur (le_enc 4 z) h else murmur (le_enc 8 z) h)
  | DUuid a b => Ok (murmur (le_enc 8 a ++ le_enc 8 b) h)
  | DString s => Ok (murmur s h)
  | _ => UB
  end.
(** value_hash.h:48-60 value_hash_refs *)
Definition value_hash_refs (v : dval) (c : column) (refs : list dval) (identity : option dval) (h : Z) : res Z :=
  do v <- deref refs v;
  do v <- match v with
          | DNull => if c_identity c then match identity with Some i => Ok i | None => UB end else Ok v
          | _ => Ok v
          end;
  value_hash v c h.
(** value_hash.h:62-76 value_hash_row: the values are the columns of a row *)
Fixpoint value_hash_row_from (h : Z) (cols : list column) (ks : keys) (refs vals : list dval) (identity : option dval) : res Z :=
  match ks with
  | [] => Ok h
  | k :: ks' =>
      do c <- match nth_error cols k with Some c => Ok c | None => UB end;
      do v <- match nth_error vals k with Some v => Ok v | None => UB end;
      do h' <- value_hash_refs v c refs identity h;
      value_hash_row_from h' cols ks' refs vals identity
  end.
Definition value_hash_row := value_hash_row_from 0.
(** value_hash.h:78-92 value_hash_keys: the values are the columns of the key *)
Fixpoint value_hash_keys_from (h : Z) (cols : list column) (ks : keys) (vals : list dval) : res Z :=
  match ks, vals with
  | [], _ => Ok h
  | k :: ks', v :: vals' =>
      do c <- match nth_error cols k with Some c => Ok c | None => UB end;
      do h' <- value_hash_refs v c [] None h;
      value_hash_keys_from h' cols ks' vals'
  | _ :: _, [] => UB
  end.
Definition value_hash_keys := value_hash_keys_from 0.

(** vm/value/row.h:18-46 row_get_identity; [generated] is the value of the sequence or of the random
    generator; [first] is columns->identity *)
Definition row_get_identity (first : option nat) (refs vals : list dval) (generated : Z) : res dval :=
  match first with
  | None => Ok (DInt 0)
  | Some i =>
      do v <- match nth_error vals i with Some v => Ok v | None => UB end;
      do v <- deref refs v;
      match v with DNull => Ok (DInt generated) | DInt z => Ok (DInt z) | _ => UB end
  end.
(** columns.h:59-61 columns->identity: the first identity column *)
Fixpoint first_identity (cols : list column) (i : nat) : option nat :=
  match cols with
  | [] => None
  | c :: cols' => if c_identity c then Some i else first_identity cols' (S i)
  end.

(** ** the mapping of hash values to partitions *)
(** part_mapping.h:16 *)
Definition PART_MAPPING_MAX := 8192.
(** a partition: its number and its range of hash values (heap header hash_min, hash_max) *)
Record part := mkpart { p_id : Z; p_min : Z; p_max : Z }.
(** part_mgr_recover.c:100-128 the loop over the partitions; [order] counts up to [count] *)
Fixpoint part_create_loop (fuel : nat) (order count start : Z) : list part :=
  match fuel with
  | O => []
  | S fuel' =>
      let interval := PART_MAPPING_MAX / count in
      let step := if order =? count - 1 then PART_MAPPING_MAX - start else interval in
      let step := if PART_MAPPING_MAX <? start + step then PART_MAPPING_MAX - start else step in
      mkpart order start (start + step) :: part_create_loop fuel' (order + 1) count (start + step)
  end.
(** part_mgr_recover.c:88-142 part_mgr_create *)
Definition part_mgr_create (count : Z) : res (list part) :=
  if (count <? 1) || (PART_MAPPING_MAX <? count) then Err
  else Ok (part_create_loop (Z.to_nat count) 0 count 0).
(** part_mapping.h:38-45 part_mapping_create *)
Definition mapping := list (option part).
Definition part_mapping_create : mapping := repeat None (Z.to_nat PART_MAPPING_MAX).
(** part_mapping.h:47-56 part_mapping_add: map[min .. max) = part *)
Fixpoint map_set (m : mapping) (i : nat) (v : option part) : res mapping :=
  match m, i with
  | _ :: r, O => Ok (v :: r)
  | x :: r, S i' => do r' <- map_set r i' v; Ok (x :: r')
  | [], _ => UB
  end.
Fixpoint map_range (m : mapping) (fuel : nat) (min max : Z) (v : option part) : res mapping :=
  match fuel with
  | O => Ok m
  | S fuel' => if min <? max then do m' <- map_set m (Z.to_nat min) v; map_range m' fuel' (min + 1) max v else Ok m
  end.
Definition part_mapping_add (m : mapping) (p : part) : res mapping :=
  map_range m (Z.to_nat (p_max p - p_min p)) (p_min p) (p_max p) (Some p).
(** part_mgr.c:73-78 map the partitions, in the order of the list *)
Fixpoint map_parts (m : mapping) (l : list part) : res mapping :=
  match l with [] => Ok m | p :: l' => do m' <- part_mapping_add m p; map_parts m' l' end.
(** self->map[hash % PART_MAPPING_MAX] *)
Definition map_at (m : mapping) (hash : Z) : option part := nth (Z.to_nat (hash mod PART_MAPPING_MAX)) m None.
(** vm/value/row.h:48-56 row_map *)
Definition row_map (m : mapping) (cols : list column) (ks : keys) (refs vals : list dval) (identity : option dval) : res (option part) :=
  do h <- value_hash_row cols ks refs vals identity; Ok (map_at m h).
(** vm/value/row.h:58-66 row_map_keys *)
Definition row_map_keys (m : mapping) (cols : list column) (ks : keys) (vals : list dval) : res (option part) :=
  do h <- value_hash_keys cols ks vals; Ok (map_at m h).
(** part_mapping.h:67-72 part_mapping_map *)
Definition part_mapping_map (m : mapping) (cols : list column) (ks : keys) (row : list Z) : res (option part) :=
  do h <- row_hash cols ks row; Ok (map_at m h).
