(** Model of the answers in JSON: vm/value/json.h (value_export), vm/output/output_json.c.  The
    buffer of the answer is the list of its bytes.  [g] is what "%g" prints for the bits of a double,
    [widen] the promotion of the bits of a float to those of a double, [tz] the timezone of the
    session: parameters.  The names of the columns are a list; the order of a column is its place. *)
From Verif Require Import Base DecLib TimeModel JsonModel JsonTextModel CodecModel ValueModel.
Local Open Scope Z_scope.

(** a value of a row: TYPE_JSON, which ValueModel.v leaves out, is [CJson] of its bytes *)
Inductive cell := CVal (v : value) | CJson (bs : list Z).
(** runtime/lib/uuid.c:17-27: the fields of the 16 bytes of Uuid (uuid.h:18-22), little endian *)
Definition uuid_bits (a b : Z) : uuid :=
  mkuuid (a mod 2 ^ 32) (a / 2 ^ 32 mod 2 ^ 16) (a / 2 ^ 48 mod 2 ^ 16) (b mod 2 ^ 16) (b / 2 ^ 16 mod 2 ^ 16) (b / 2 ^ 32 mod 2 ^ 32).
(** the bytes of a literal of the code *)
Definition lit_msg : list Z := [109; 115; 103].
Definition lit_cut : list Z := [226; 128; 166; 10].

Section Out.
Variable g : Z -> list Z.
Variable widen : Z -> Z.
Variable tz : option (Z -> res Z).

(** vm/value/json.h:197-201 the elements of a vector behind the first [i]; "i != size - 1" is
    that there is an element behind this one *)
Fixpoint vector_items (v : list Z) : list Z :=
  match v with
  | [] => []
  | e :: v' => g (widen e) ++ (match v' with [] => [] | _ => [44; 32] end) ++ vector_items v'
  end.
(** json_export.c:18-127 json_export_as of the bytes of a value, the text alone *)
Definition json_as (pretty : bool) (deep : nat) (bs : list Z) : res (list Z) :=
  do (t, _) <- export g (length bs) pretty deep bs; Ok t.
(** vm/value/json.h:149-220 value_export: the bytes added to the buffer *)
Definition value_export (pretty : bool) (c : cell) : res (list Z) :=
  match c with
  | CVal VNull => Ok lit_null
  | CVal (VBool z) => Ok (if 0 <? z then lit_true else lit_false)
  | CVal (VInt z) => Ok (dec z)
  | CVal (VDouble d) => Ok (g d)
  | CVal (VString s) => Ok ([34] ++ escape s ++ [34])
  | CJson bs => json_as pretty 0 bs
  | CVal (VDate d) => do t <- date_get d; Ok ([34] ++ t ++ [34])
  | CVal (VTimestamp z) => do t <- timestamp_get z tz; Ok ([34] ++ t ++ [34])
  | CVal (VInterval m d us) => do t <- interval_get (Iv m d us); Ok ([34] ++ t ++ [34])
  | CVal (VVector v) => Ok ([91] ++ vector_items v ++ [93])
  | CVal (VUuid a b) => Ok ([34] ++ uuid_get (uuid_bits a b) ++ [34])
  end.

(** [limit]: the option limit_send *)
Variable limit : Z.
(** vm/output/output.h:58-64 output_ensure_limit *)
Definition ensure_limit (buf : list Z) : res (list Z) :=
  if limit <=? Z.of_nat (length buf) then Err else Ok buf.
(** row + column->order *)
Definition at_order (row : list cell) (order : nat) : res cell :=
  match nth_error row order with Some c => Ok c | None => UB end.

(** output_json.c:27-34 the columns from [order] on of output_json_row_array *)
Fixpoint row_array (pretty : bool) (order : nat) (columns : list (list Z)) (row : list cell) (buf : list Z) : res (list Z) :=
  match columns with
  | [] => Ok buf
  | _ :: cs =>
    let buf1 := if (0 <? order)%nat then buf ++ [44; 32] else buf in
    do c <- at_order row order;
    do t <- value_export pretty c;
    do buf2 <- ensure_limit (buf1 ++ t);
    row_array pretty (S order) cs row buf2
  end.
(** output_json.c:21-37 output_json_row_array *)
Definition output_row_array (pretty : bool) (columns : list (list Z)) (row : list cell) (buf : list Z) : res (list Z) :=
  let many := (1 <? length columns)%nat in
  do buf1 <- row_array pretty 0 columns row (if many then buf ++ [91] else buf);
  Ok (if many then buf1 ++ [93] else buf1).
(** output_json.c:46-67 the columns from [order] on of output_json_row_obj, pretty *)
Fixpoint row_obj_pretty (order : nat) (columns : list (list Z)) (row : list cell) (buf : list Z) : res (list Z) :=
  match columns with
  | [] => Ok buf
  | name :: cs =>
    let buf1 := if (0 <? order)%nat then buf ++ [44; 10] else buf in
    let buf2 := buf1 ++ [32; 32; 34] ++ name ++ [34; 58; 32] in
    do c <- at_order row order;
    do t <- (match c with CJson bs => json_as true 1 bs | CVal _ => value_export true c end);
    do buf3 <- ensure_limit (buf2 ++ t);
    row_obj_pretty (S order) cs row buf3
  end.
(** output_json.c:73-88 the same, not pretty *)
Fixpoint row_obj_plain (order : nat) (columns : list (list Z)) (row : list cell) (buf : list Z) : res (list Z) :=
  match columns with
  | [] => Ok buf
  | name :: cs =>
    let buf1 := if (0 <? order)%nat then buf ++ [44; 32] else buf in
    let buf2 := buf1 ++ [34] ++ name ++ [34; 58; 32] in
    do c <- at_order row order;
    do t <- value_export false c;
    do buf3 <- ensure_limit (buf2 ++ t);
    row_obj_plain (S order) cs row buf3
  end.
(** output_json.c:39-90 output_json_row_obj *)
Definition output_row_obj (pretty : bool) (columns : list (list Z)) (row : list cell) (buf : list Z) : res (list Z) :=
  if pretty then
    do buf1 <- row_obj_pretty 0 columns row (buf ++ [123; 10]); Ok (buf1 ++ [10; 125])
  else
    do buf1 <- row_obj_plain 0 columns row (buf ++ [123]); Ok (buf1 ++ [125]).
(** output_json.c:111-114 and 125-128 *)
Definition output_row (minimal pretty : bool) (columns : list (list Z)) (row : list cell) (buf : list Z) : res (list Z) :=
  if minimal then output_row_array pretty columns row buf else output_row_obj pretty columns row buf.
(** output_json.c:103-117 the rows of a store from the iterator on *)
Fixpoint output_rows (minimal pretty first : bool) (columns : list (list Z)) (rows : list (list cell)) (buf : list Z) : res (list Z) :=
  match rows with
  | [] => Ok buf
  | row :: rs =>
    do buf1 <- output_row minimal pretty columns row (if first then buf else buf ++ [44; 32]);
    output_rows minimal pretty false columns rs buf1
  end.
(** what the program returned: a store or a single row *)
Inductive result := Store (rows : list (list cell)) | Row (row : list cell).
(** output_json.c:92-131 output_json_write, from the empty buffer of a request *)
Definition output_write (minimal pretty : bool) (columns : list (list Z)) (v : result) : res (list Z) :=
  match v with
  | Store rows => do buf <- output_rows minimal pretty true columns rows [91]; Ok (buf ++ [93])
  | Row row => do buf <- output_row minimal pretty columns row [91]; Ok (buf ++ [93])
  end.

(** output_json.c:133-174 output_json_write_json *)
Definition output_write_json (minimal pretty : bool) (column bs : list Z) (unwrap : bool) : res (list Z) :=
  do array <- (match bs with [] => UB | h :: _ => Ok (h =? JSON_ARRAY) end);
  let wrap := negb (unwrap && array) in
  do t <- json_as pretty 0 bs;
  let one := if minimal then t
    else [123] ++ (if pretty then [10; 32; 32; 34] else [34]) ++ column ++ [34; 58; 32] ++ t ++
         (if pretty then [10] else []) ++ [125] in
  Ok ((if wrap then [91] else []) ++ one ++ (if wrap then [93] else [])).

(** output_json.c:176-206 output_json_write_error: the text of the error is cut to its last 512
    bytes; the four bytes before them are an ellipsis and a line feed *)
Definition output_write_error (text : list Z) : res (list Z) :=
  let shown := if (512 <? length text)%nat then lit_cut ++ skipn (length text - 512) text else text in
  json_as false 0 ([JSON_OBJ] ++ json_write_raw lit_msg ++
    (if (512 <? length text)%nat then json_write_wide shown else json_write_raw shown) ++
    [JSON_OBJ_END]).
End Out.
