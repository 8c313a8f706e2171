(** Model of runtime/lib/date.c, interval.c, timestamp.c, timezone.c, of the integer and time
    arithmetic of vm/vm/vm.c, and of date_bin and date_trunc (vm/func/fn_time.c).
    Signed overflow is undefined behaviour; unsigned arithmetic and conversions wrap.
    gmtime_r and mktime are those of the C library with TZ=UTC (runtime.c:75). *)
From Verif Require Import Base DecLib TimeSpec.
Local Open Scope Z_scope.

Definition in32 (v : Z) : bool := (- 2 ^ 31 <=? v) && (v <? 2 ^ 31).
Definition in64 (v : Z) : bool := (- 2 ^ 63 <=? v) && (v <? 2 ^ 63).
Definition to32 (v : Z) : Z := sx 4 (v mod 2 ^ 32). (* conversion to int32_t *)
Definition to64 (v : Z) : Z := sx 8 (v mod 2 ^ 64). (* conversion to int64_t *)
Definition u64 (v : Z) : Z := v mod 2 ^ 64. (* conversion to uint64_t *)
Definition s32_ (v : Z) : res Z := if in32 v then Ok v else UB. (* int arithmetic *)
Definition s64_ (v : Z) : res Z := if in64 v then Ok v else UB. (* int64_t arithmetic *)

(** ** overflow.h:14-70 and vm.c: integer arithmetic of expressions *)
(** overflow.h:35-40, vm.c:1017-1024 caddii *)
Definition op_add (a b : Z) : res Z := if in64 (a + b) then Ok (a + b) else Err.
(** overflow.h:42-47, vm.c:1128-1135 csubii *)
Definition op_sub (a b : Z) : res Z := if in64 (a - b) then Ok (a - b) else Err.
(** overflow.h:49-54, vm.c:1223-1230 cmulii *)
Definition op_mul (a b : Z) : res Z := if in64 (a * b) then Ok (a * b) else Err.
(** vm.c:1275-1282 cdivii *)
Definition op_div (a b : Z) : res Z := if b =? 0 then Err else s64_ (Z.quot a b).
(** vm.c:1318-1325 cmodii; INT64_MIN % -1 is undefined as the quotient is *)
Definition op_mod (a b : Z) : res Z := if b =? 0 then Err else do _ <- s64_ (Z.quot a b); Ok (Z.rem a b).
(** vm.c:1328-1331 cnegi *)
Definition op_neg (a : Z) : res Z := s64_ (- a).
(** overflow.h:56-62 int32_mul_add_overflow, as the loops use it *)
Definition mul_add32 (v d : Z) : res Z := if in32 (v * 10) && in32 (v * 10 + d) then Ok (v * 10 + d) else Err.
(** overflow.h:64-70 *)
Definition mul_add64 (v d : Z) : res Z := if in64 (v * 10) && in64 (v * 10 + d) then Ok (v * 10 + d) else Err.

(** ** date.c *)
Definition DATE_MIN : Z := 1721426. (* date.h:15 *)
Definition DATE_MAX : Z := 5373484. (* date.h:18 *)
(** date.c:23-28 *)
Definition date_validate (v : Z) : res unit := if (v <? DATE_MIN) || (DATE_MAX <? v) then Err else Ok tt.
(** date.c:30-43 date_parse_part, timestamp.c:29-42: [n] bytes from the position; a byte behind
    the end of the string is undefined behaviour *)
Fixpoint part_loop (n : nat) (v : Z) (s : list Z) : res (Z * list Z) :=
  match n with
  | O => Ok (v, s)
  | S n' => match s with
            | [] => UB
            | b :: s' => if is_digit b then do v' <- mul_add32 v (b - 48); part_loop n' v' s' else Err
            end
  end.
Definition parse_part (n : nat) (s : list Z) : res (Z * list Z) := part_loop n 0 s.
(** the byte at pos_end has to be one of [cs] *)
Definition expect (i : nat) (cs : list Z) (s : list Z) : res unit :=
  match nth_error s i with None => UB | Some b => if existsb (Z.eqb b) cs then Ok tt else Err end.
(** date.c:100-111 date_set_gregorian: the arguments have at most four digits *)
Definition date_set_gregorian (year month day : Z) : res Z :=
  let a := Z.quot (14 - month) 12 in
  let y := year + 4800 - a in
  let m := month + 12 * a - 3 in
  let j := day + Z.quot (153 * m + 2) 5 + y * 365 + Z.quot y 4 - Z.quot y 100 + Z.quot y 400 - 32045 in
  do _ <- date_validate j; Ok j.
(** date.c:113-127 date_get_gregorian *)
Definition date_get_gregorian (j : Z) : res (Z * Z * Z) :=
  do _ <- date_validate j;
  let a := j + 32044 in
  let b := Z.quot (4 * a + 3) 146097 in
  let c := a - Z.quot (b * 146097) 4 in
  let d := Z.quot (4 * c + 3) 1461 in
  let e := c - Z.quot (d * 1461) 4 in
  let f := Z.quot (5 * e + 2) 153 in
  let g := Z.quot f 10 in
  Ok (b * 100 + d - 4800 + g, f + 3 - 12 * g, e + 1 - Z.quot (153 * f + 2) 5).
(** date.c:45-80 date_set *)
Definition date_set (s : list Z) : res Z :=
  if negb (Z.of_nat (length s) =? 10) then Err
  else
    do _ <- expect 4 [45] s;
    do (year, _) <- parse_part 4 s;
    let s := skipn 5 s in
    do _ <- expect 2 [45] s;
    do (month, _) <- parse_part 2 s;
    let s := skipn 3 s in
    do (day, _) <- parse_part 2 s;
    date_set_gregorian year month day.
(** date.c:89-98 date_get *)
Definition date_get (j : Z) : res (list Z) :=
  do (ym, d) <- date_get_gregorian j;
  let '(y, m) := ym in
  Ok (pad 4 y ++ [45] ++ pad 2 m ++ [45] ++ pad 2 d).
(** date.c:129-145; vm.c:1081-1089, 1191-1194: the integer is converted to int *)
Definition op_date_add (j days : Z) : res Z := do _ <- date_validate j; let r := j + to32 days in do _ <- date_validate r; Ok r.
Definition op_date_sub (j days : Z) : res Z := do _ <- date_validate j; let r := j - to32 days in do _ <- date_validate r; Ok r.

(** ** interval.c *)
Record interval := Iv { im : Z; id_ : Z; ius : Z }.
Definition is_space (b : Z) : bool := (b =? 32) || ((9 <=? b) && (b <=? 13)).
Definition is_alpha (b : Z) : bool := ((65 <=? b) && (b <=? 90)) || ((97 <=? b) && (b <=? 122)).
Fixpoint skip_spaces (s : list Z) : list Z := match s with b :: s' => if is_space b then skip_spaces s' else s | [] => [] end.
Fixpoint span_alpha (s : list Z) : list Z * list Z :=
  match s with b :: s' => if is_alpha b then let '(t, r) := span_alpha s' in (b :: t, r) else ([], s) | [] => ([], []) end.
Fixpoint eqb_list (a b : list Z) : bool :=
  match a, b with [], [] => true | x :: a', y :: b' => (x =? y) && eqb_list a' b' | _, _ => false end.
Inductive unit_ := UMonth (k : Z) | UDay (k : Z) | UUs (k : Z).
(** interval.c:35-152: the words and their factors.  The switch on the first character selects
    among words that begin with it *)
Definition iv_words : list (list Z * unit_) :=
  [([109;105;110;115], UUs 60000000); ([109;105;110], UUs 60000000); ([109;105;110;117;116;101;115], UUs 60000000); ([109;105;110;117;116;101], UUs 60000000); (* mins min minutes minute *)
   ([109;111;110;116;104;115], UMonth 1); ([109;111;110;116;104], UMonth 1); (* months month *)
   ([109;115], UUs 1000); ([109;105;108;108;105;115;101;99;111;110;100;115], UUs 1000); ([109;105;108;108;105;115;101;99;111;110;100], UUs 1000); (* ms milliseconds millisecond *)
   ([109;105;99;114;111;115;101;99;111;110;100;115], UUs 1); ([109;105;99;114;111;115;101;99;111;110;100], UUs 1); (* microseconds microsecond *)
   ([117;115], UUs 1); (* us *)
   ([115;101;99;115], UUs 1000000); ([115;101;99], UUs 1000000); ([115;101;99;111;110;100;115], UUs 1000000); ([115;101;99;111;110;100], UUs 1000000); (* secs sec seconds second *)
   ([104;114;115], UUs 3600000000); ([104;114], UUs 3600000000); ([104;111;117;114;115], UUs 3600000000); ([104;111;117;114], UUs 3600000000); (* hrs hr hours hour *)
   ([100;97;121;115], UDay 1); ([100;97;121], UDay 1); (* days day *)
   ([119;101;101;107;115], UDay 7); ([119;101;101;107], UDay 7); (* weeks week *)
   ([121;101;97;114;115], UMonth 12); ([121;101;97;114], UMonth 12)]. (* years year *)
Definition find_word (t : list Z) : option unit_ := option_map snd (find (fun w => eqb_list (fst w) t) iv_words).
(** interval.c:36-151: m and d are assigned through a conversion to int32_t *)
Definition interval_read_type (iv : interval) (t : list Z) (v : Z) : res interval :=
  match find_word t with
  | None => Err
  | Some (UMonth k) => do p <- s64_ (v * k); do q <- s64_ (im iv + p); Ok (Iv (to32 q) (id_ iv) (ius iv))
  | Some (UDay k) => do p <- s64_ (v * k); do q <- s64_ (id_ iv + p); Ok (Iv (im iv) (to32 q) (ius iv))
  | Some (UUs k) => do p <- s64_ (v * k); do q <- s64_ (ius iv + p); Ok (Iv (im iv) (id_ iv) q)
  end.
(** interval.c:176-183 *)
Fixpoint cardinal_loop (v : Z) (s : list Z) : res (Z * list Z) :=
  match s with
  | b :: s' => if is_digit b then do v' <- mul_add64 v (b - 48); cardinal_loop v' s' else Ok (v, s)
  | [] => Ok (v, s)
  end.
(** interval.c:154-210 interval_set *)
Fixpoint interval_loop (fuel : nat) (iv : interval) (s : list Z) : res interval :=
  match fuel with
  | O => UB
  | S f =>
    match skip_spaces s with
    | [] => Ok iv
    | b :: s1 =>
      let neg := b =? 45 in
      do (v, s2) <- cardinal_loop 0 (if neg then s1 else b :: s1);
      match s2 with
      | [] => Err
      | c :: s3 =>
        if is_space c then
          let v := if neg then - v else v in
          match skip_spaces s3 with
          | [] => Err
          | s4 => let '(t, s5) := span_alpha s4 in do iv' <- interval_read_type iv t v; interval_loop f iv' s5
          end
        else Err
      end
    end
  end.
Definition interval_set (s : list Z) : res interval := interval_loop (S (length s)) (Iv 0 0 0) s.
(** the words of interval_get *)
Definition w_year : list Z := [121;101;97;114].
Definition w_month : list Z := [109;111;110;116;104].
Definition w_day : list Z := [100;97;121].
Definition w_hour : list Z := [104;111;117;114].
Definition w_minute : list Z := [109;105;110;117;116;101].
Definition w_second : list Z := [115;101;99;111;110;100].
Definition w_ms : list Z := [109;115].
Definition w_us : list Z := [117;115].
(** "%d %s " with the plural unless the absolute value is one *)
Definition fmt_span (v : Z) (w : list Z) : list Z := dec v ++ [32] ++ w ++ (if Z.abs v =? 1 then [] else [115]) ++ [32].
(** interval.c:212-287 interval_get: abs of the smallest int is undefined; the buffers of all
    callers (256 and 512 bytes) are larger than the longest text *)
Definition interval_get (iv : interval) : res (list Z) :=
  let y := Z.quot (im iv) 12 in
  let m := if y =? 0 then im iv else Z.rem (im iv) 12 in
  do _ <- s32_ (Z.abs (id_ iv));
  let us := ius iv in
  let hours := Z.quot us 3600000000 in
  let us1 := if hours =? 0 then us else Z.rem us 3600000000 in
  let minutes := Z.quot us1 60000000 in
  let us2 := if minutes =? 0 then us1 else Z.rem us1 60000000 in
  let seconds := Z.quot us2 1000000 in
  let us3 := if seconds =? 0 then us2 else Z.rem us2 1000000 in
  let ms := Z.quot us3 1000 in
  let us4 := if ms =? 0 then us3 else Z.rem us3 1000 in
  Ok (removelast
    ((if y =? 0 then [] else fmt_span y w_year) ++ (if m =? 0 then [] else fmt_span m w_month) ++
     (if id_ iv =? 0 then [] else fmt_span (id_ iv) w_day) ++
     (if hours =? 0 then [] else fmt_span hours w_hour) ++ (if minutes =? 0 then [] else fmt_span minutes w_minute) ++
     (if seconds =? 0 then [] else fmt_span seconds w_second) ++
     (if ms =? 0 then [] else dec ms ++ [32] ++ w_ms ++ [32]) ++ (if us4 =? 0 then [] else dec us4 ++ [32] ++ w_us ++ [32]))).
(** interval.c:301-323 *)
Definition interval_add (a b : interval) : res interval :=
  do m <- s32_ (im a + im b); do d <- s32_ (id_ a + id_ b); do u <- s64_ (ius a + ius b); Ok (Iv m d u).
Definition interval_sub (a b : interval) : res interval :=
  do m <- s32_ (im a - im b); do d <- s32_ (id_ a - id_ b); do u <- s64_ (ius a - ius b); Ok (Iv m d u).
Definition interval_neg (a : interval) : res interval :=
  do m <- s32_ (- im a); do d <- s32_ (- id_ a); do u <- s64_ (- ius a); Ok (Iv m d u).
(** interval.c:325-335 *)
Inductive field := FYear | FMonth | FDay | FHour | FMinute | FSecond | FMs | FUs.
(** (x / c) * c in unsigned arithmetic, assigned to int64_t *)
Definition trunc_u (us c : Z) : Z := to64 (u64 us / c * c).
(** interval.c:400-452 interval_trunc *)
Definition interval_trunc (iv : interval) (f : field) : interval :=
  match f with
  | FYear => Iv (Z.quot (im iv) 12 * 12) 0 0
  | FMonth => Iv (im iv) 0 0
  | FDay => Iv (im iv) (id_ iv) (trunc_u (ius iv) 86400000000)
  | FHour => Iv (im iv) (id_ iv) (trunc_u (ius iv) 3600000000)
  | FMinute => Iv (im iv) (id_ iv) (trunc_u (ius iv) 60000000)
  | FSecond => Iv (im iv) (id_ iv) (trunc_u (ius iv) 1000000)
  | FMs => Iv (im iv) (id_ iv) (trunc_u (ius iv) 1000)
  | FUs => iv
  end.
(** interval.c:454-489 interval_extract, converted to int64_t by fn_extract (fn_time.c:229-261) *)
Definition interval_extract (iv : interval) (f : field) : Z :=
  match f with
  | FYear => Z.quot (im iv) 12
  | FMonth => Z.rem (im iv) 12
  | FDay => id_ iv
  | FHour => to64 (u64 (ius iv) / 3600000000)
  | FMinute => to64 (u64 (ius iv) mod 3600000000 / 60000000)
  | FSecond => to64 (u64 (ius iv) mod 60000000 / 1000000)
  | FMs => to64 (u64 (ius iv) mod 1000000 / 1000)
  | FUs => Z.rem (ius iv) 1000
  end.

(** ** timestamp.c *)
(** struct tm with the year and the month as they are written (not minus 1900 and minus 1),
    struct Timestamp *)
Record tstamp := Ts { ty : Z; tmon : Z; tday : Z; th : Z; tmi : Z; tsec : Z; tus : Z; tzone : option Z }.
Definition TIMESTAMP_MAX : Z := 253402300799999999. (* timestamp.h:20 *)
(** gmtime_r of the C library: the date of the day and the time of the day *)
Definition civil (j : Z) : Z * Z * Z :=
  let a := j + 32044 in
  let b := (4 * a + 3) / 146097 in
  let c := a - b * 146097 / 4 in
  let d := (4 * c + 3) / 1461 in
  let e := c - d * 1461 / 4 in
  let f := (5 * e + 2) / 153 in
  let g := f / 10 in
  (b * 100 + d - 4800 + g, f + 3 - 12 * g, e + 1 - (153 * f + 2) / 5).
Definition EPOCH : Z := 2440588. (* the Julian day number of 1970-01-01 *)
Definition gmtime (t us : Z) : tstamp :=
  let '(y, m, d) := civil (t / 86400 + EPOCH) in
  let s := t mod 86400 in
  Ts y m d (s / 3600) (s / 60 mod 60) (s mod 60) us None.
(** mktime of the C library: all fields may be out of their range *)
Definition mktime (t : tstamp) : Z :=
  let m := tmon t - 1 in
  let y := ty t + m / 12 in
  (day_number y (m mod 12 + 1) 1 + (tday t - 1) - EPOCH) * 86400 + th t * 3600 + tmi t * 60 + tsec t.
(** timestamp.c:226-231 *)
Definition ts_validate (v : Z) : res unit := if (v <? 0) || (TIMESTAMP_MAX <? v) then Err else Ok tt.
(** timestamp.c:101-131: the fraction *)
Fixpoint frac_loop (v n : Z) (s : list Z) : res (Z * Z * list Z) :=
  match s with
  | b :: s' => if is_digit b then do v' <- mul_add32 v (b - 48); frac_loop v' (n + 1) s' else Ok (v, n, s)
  | [] => Ok (v, n, s)
  end.
Definition parse_frac (s : list Z) : res (Z * list Z) :=
  match s with
  | b :: s1 =>
    if b =? 46 then
      do (vn, s2) <- frac_loop 0 0 s1;
      let '(v, n) := vn in
      if (1 <=? n) && (n <=? 6) then Ok (v * 10 ^ (6 - n), s2) else Err
    else Ok (0, s)
  | [] => Ok (0, s)
  end.
(** timestamp.c:133-184: the zone *)
Definition parse_zone (s : list Z) : res (option Z) :=
  match s with
  | [] => Ok None
  | b :: s1 =>
    if b =? 90 then match s1 with [] => Ok (Some 0) | _ => Err end
    else if Z.of_nat (length s) <? 3 then Err
    else if (b =? 45) || (b =? 43) then
      do (hh, s2) <- parse_part 2 s1;
      do mm <- (match s2 with
                | [] => Ok 0
                | c :: s3 =>
                  let s4 := if c =? 58 then s3 else s2 in
                  if Z.of_nat (length s4) =? 2 then do (mm, _) <- parse_part 2 s4; Ok mm else Err
                end);
      let z := hh * 60 * 60 + mm * 60 in
      Ok (Some (if b =? 45 then - z else z))
    else Err
  end.
(** timestamp.c:44-188 timestamp_parse *)
Definition timestamp_parse (s : list Z) : res tstamp :=
  if Z.of_nat (length s) <? 19 then Err
  else
    match skip_spaces s with
    | [] => Err
    | s =>
      do _ <- expect 4 [45] s;
      do (year, _) <- parse_part 4 s;
      let s := skipn 5 s in
      do _ <- expect 2 [45] s;
      do (month, _) <- parse_part 2 s;
      let s := skipn 3 s in
      do _ <- expect 2 [32; 84] s;
      do (day, _) <- parse_part 2 s;
      let s := skipn 3 s in
      do _ <- expect 2 [58] s;
      do (hour, _) <- parse_part 2 s;
      let s := skipn 3 s in
      do _ <- expect 2 [58] s;
      do (min, _) <- parse_part 2 s;
      let s := skipn 3 s in
      do (sec, s) <- parse_part 2 s;
      do (us, s) <- parse_frac s;
      do z <- parse_zone s;
      Ok (Ts year month day hour min sec us z)
    end.
(** timestamp.c:190-224 timestamp_validate, 247-259 timestamp_set *)
Definition timestamp_set (s : list Z) : res tstamp :=
  do t <- timestamp_parse s;
  if (1970 <=? ty t) && (ty t <=? 9999) && (1 <=? tmon t) && (tmon t <=? 12) && (1 <=? tday t) && (tday t <=? 31) &&
     (match tzone t with Some z => (-86400 <=? z) && (z <=? 86400) | None => true end)
  then Ok t else Err.
(** timestamp.c:261-270 timestamp_set_unixtime *)
Definition timestamp_set_unixtime (v : Z) : res tstamp := do _ <- ts_validate v; Ok (gmtime (v / 1000000) (v mod 1000000)).
(** timestamp.c:233-245 timestamp_set_date *)
Definition timestamp_set_date (j : Z) : res tstamp :=
  do (ym, d) <- date_get_gregorian j; let '(y, m) := ym in Ok (Ts y m d 0 0 0 0 None).
(** timestamp.c:272-307 timestamp_get_unixtime: [tz] is NULL or the offset that timezone_match
    finds for a time *)
Definition timestamp_get_unixtime (t : tstamp) (tz : option (Z -> res Z)) : res Z :=
  let time := mktime t in
  if time =? -1 then Err
  else
    do time <- (match tz with
                | None => Ok time
                | Some f => match tzone t with None => do off <- f time; Ok (time - off) | Some z => Ok (time - z) end
                end);
    if time <? 0 then Err
    else
      do v <- s64_ (to64 (u64 (time * 1000000)) + tus t);
      do _ <- ts_validate v; Ok v.
(** timestamp.c:330-344 *)
Definition zone_text (off : Z) : list Z :=
  let sign := if 0 <=? off then 43 else 45 in
  let offset := Z.abs off in
  let hr := Z.quot offset 3600 in
  let min := Z.quot (offset - 3600 * hr) 60 in
  sign :: pad 2 hr ++ (if min =? 0 then [] else 58 :: pad 2 min).
(** timestamp.c:346-354 *)
Definition frac_text (us : Z) : list Z :=
  if us =? 0 then [] else if Z.rem us 1000 =? 0 then 46 :: pad 3 (Z.quot us 1000) else 46 :: pad 6 us.
(** timestamp.c:309-367 timestamp_get *)
Definition timestamp_get (v : Z) (tz : option (Z -> res Z)) : res (list Z) :=
  do _ <- ts_validate v;
  let time := v / 1000000 in
  do off <- (match tz with None => Ok None | Some f => do o <- f time; Ok (Some o) end);
  let t := gmtime (match off with None => time | Some o => time + o end) (v mod 1000000) in
  Ok (pad 4 (ty t) ++ [45] ++ pad 2 (tmon t) ++ [45] ++ pad 2 (tday t) ++ [32] ++
      pad 2 (th t) ++ [58] ++ pad 2 (tmi t) ++ [58] ++ pad 2 (tsec t) ++ frac_text (tus t) ++
      match off with None => [] | Some o => zone_text o end).
(** timestamp.c:369-417 timestamp_add ([sg] = 1) and 419-467 timestamp_sub ([sg] = -1) *)
Definition timestamp_shift (sg : Z) (t : tstamp) (iv : interval) : res tstamp :=
  let y := Z.quot (im iv) 12 in
  let m := if y =? 0 then im iv else Z.rem (im iv) 12 in
  do day <- s32_ (tday t + sg * id_ iv);
  let us := ius iv in
  let hours := Z.quot us 3600000000 in
  let us1 := if hours =? 0 then us else Z.rem us 3600000000 in
  let minutes := Z.quot us1 60000000 in
  let us2 := if minutes =? 0 then us1 else Z.rem us1 60000000 in
  let seconds := Z.quot us2 1000000 in
  let us3 := if seconds =? 0 then us2 else Z.rem us2 1000000 in
  Ok (Ts (ty t + sg * y) (tmon t + sg * m) day (to32 (th t + sg * hours)) (tmi t + sg * minutes) (tsec t + sg * seconds) (tus t + sg * us3) (tzone t)).
(** vm.c:1053-1061 caddtl, 1164-1172 csubtl *)
Definition op_ts_shift (sg v : Z) (iv : interval) : res Z :=
  do t <- timestamp_set_unixtime v; do t' <- timestamp_shift sg t iv; timestamp_get_unixtime t' None.
(** vm.c:1091-1100 cadddl, 1196-1205 csubdl *)
Definition op_date_shift (sg j : Z) (iv : interval) : res Z :=
  do t <- timestamp_set_date j; do t' <- timestamp_shift sg t iv; timestamp_get_unixtime t' None.
(** vm.c:1174-1181 csubtt *)
Definition op_ts_diff (a b : Z) : res interval := do u <- s64_ (a - b); Ok (Iv 0 0 u).
(** timestamp.c:544-581 timestamp_trunc *)
Definition timestamp_trunc (t : tstamp) (f : field) : tstamp :=
  let us := match f with FUs => tus t | FMs => Z.quot (tus t) 1000 * 1000 | _ => 0 end in
  let keep_s := match f with FSecond | FMs | FUs => true | _ => false end in
  let keep_m := match f with FMinute | FSecond | FMs | FUs => true | _ => false end in
  let keep_h := match f with FHour | FMinute | FSecond | FMs | FUs => true | _ => false end in
  let keep_d := match f with FYear | FMonth => false | _ => true end in
  let keep_mon := match f with FYear => false | _ => true end in
  Ts (ty t) (if keep_mon then tmon t else 1) (if keep_d then tday t else 1) (if keep_h then th t else 0)
     (if keep_m then tmi t else 0) (if keep_s then tsec t else 0) us (tzone t).
(** fn_time.c:114-166 fn_date_trunc of a timestamp, in the zone of the session or the argument *)
Definition date_trunc (v : Z) (f : field) (tz : Z -> res Z) : res Z :=
  do t <- timestamp_set_unixtime v; timestamp_get_unixtime (timestamp_trunc t f) (Some tz).
(** timestamp.c:583-634 timestamp_extract *)
Definition timestamp_extract (v : Z) (f : field) (tz : Z -> res Z) : res Z :=
  let time := v / 1000000 in
  do off <- tz time;
  let t := gmtime (time + off) (v mod 1000000) in
  Ok (match f with FYear => ty t | FMonth => tmon t | FDay => tday t | FHour => th t | FMinute => tmi t | FSecond => tsec t
      | FMs => Z.quot (tus t) 1000 | FUs => tus t end).
(** timestamp.c:636-645 timestamp_date *)
Definition timestamp_date (v : Z) : res Z := do t <- timestamp_set_unixtime v; date_set_gregorian (ty t) (tmon t) (tday t).
(** fn_time.c:60-112 fn_date_bin: the timestamps are not negative *)
Definition date_bin (v : Z) (iv : interval) (origin : Z) : res Z :=
  if negb (im iv =? 0) then Err
  else
    let span := to64 (u64 (u64 (id_ iv) * 86400000000 + u64 (ius iv))) in
    if span <=? 0 then Err
    else if v <? origin then Err
    else let at_ := v - origin in Ok (origin + (at_ - at_ mod span)).

(** ** timezone.c *)
(** transition times as they are stored (uint32_t, timezone.h:40; read from the 32-bit block of
    the file and converted by timezone.c:89-90), transition types, offsets *)
Record tzdata := Tz { tz_times : list Z; tz_types : list Z; tz_offs : list Z }.
Definition rd (l : list Z) (i : Z) : res Z := if (i <? 0) || (Z.of_nat (length l) <=? i) then UB else Ok (nth (Z.to_nat i) l 0).
(** timezone.c:126-150: the loop *)
Fixpoint match_loop (fuel : nat) (l : list Z) (n time min max mid : Z) : res Z :=
  match fuel with
  | O => UB
  | S f =>
    if mid <=? min then Ok mid
    else if n <=? min then Ok n
    else
      do x <- rd l mid;
      if x =? time then Ok (mid + 1)
      else
        let min := if x <? time then mid + 1 else min in
        let max := if x <? time then max else mid - 1 in
        match_loop f l n time min max (Z.quot (min + max) 2)
  end.
(** timezone.c:120-160 timezone_match *)
Definition timezone_match (z : tzdata) (time : Z) : res Z :=
  let n := Z.of_nat (length (tz_times z)) in
  if n =? 0 then rd (tz_offs z) 0
  else
    do mid <- match_loop (S (length (tz_times z))) (tz_times z) n time 1 n (Z.quot (1 + n) 2);
    let mid := if n <? mid then n else mid in
    do x <- rd (tz_times z) mid;
    let mid := if x <? time then mid + 1 else mid in
    do ty <- rd (tz_types z) (mid - 1);
    rd (tz_offs z) ty.
