(** What a JSON value is, and which byte strings represent it.  Independent of
    the reading functions of the model. *)
From Verif Require Import Base JsonModel.

(** A JSON value.  Objects keep their fields in order; a real is its 64 IEEE bits. *)
Inductive json : Type :=
| JNull
| JBool (b : bool)
| JInt (z : Z)
| JReal (bits : Z)
| JStr (s : list Z)
| JObj (fields : list (list Z * json))
| JArr (items : list json).

(** Values the database can hold: 64-bit integers, strings of bytes of at most
    2^31-1 bytes (sizes are read back as int32_t), 64-bit reals. *)
Definition str_wf (s : list Z) : bool :=
  bytes_ok s && (Z.of_nat (length s) <=? INT32_MAX).
Fixpoint json_wf (v : json) : bool :=
  match v with
  | JNull | JBool _ => true
  | JInt z => (INT64_MIN <=? z) && (z <=? INT64_MAX)
  | JReal b => (0 <=? b) && (b <? 2 ^ 64)
  | JStr s => str_wf s
  | JObj l => forallb (fun kv => str_wf (fst kv) && json_wf (snd kv)) l
  | JArr l => forallb json_wf l
  end.

(** The double that is nearest to [bits] among those with 24 significant bits
    when [bits] is in the single precision range, else [bits] itself. *)
Definition real_stored (bits : Z) : Z :=
  if real_fits_float bits
  then let q := bits / 2 ^ 29 in
       let r := bits mod 2 ^ 29 in
       2 ^ 29 * (if (2 ^ 28 <? r) || ((r =? 2 ^ 28) && Z.odd q) then q + 1 else q)
  else bits.

Fixpoint json_stored (v : json) : json :=
  match v with
  | JNull => JNull
  | JBool b => JBool b
  | JInt z => JInt z
  | JReal b => JReal (real_stored b)
  | JStr s => JStr s
  | JObj l => JObj (map (fun kv => (fst kv, json_stored (snd kv))) l)
  | JArr l => JArr (map json_stored l)
  end.

(** no real needs more than single precision *)
Fixpoint json_reals_exact (v : json) : bool :=
  match v with
  | JReal b => negb (real_fits_float b) || (b mod 2 ^ 29 =? 0)
  | JObj l => forallb (fun kv => json_reals_exact (snd kv)) l
  | JArr l => forallb json_reals_exact l
  | _ => true
  end.

(** The event stream of a value, in document order (the calls encode_*() made by
    a writer of the value, amelie/runtime/json/encode.h:14-152). *)
Inductive tok : Type :=
| TNull | TBool (b : bool) | TInt (z : Z) | TReal (bits : Z) | TStr (s : list Z)
| TObj | TObjE | TArr | TArrE.

Fixpoint toks (v : json) : list tok :=
  match v with
  | JNull => [TNull]
  | JBool b => [TBool b]
  | JInt z => [TInt z]
  | JReal b => [TReal b]
  | JStr s => [TStr s]
  | JObj l => TObj :: flat_map (fun kv => TStr (fst kv) :: toks (snd kv)) l ++ [TObjE]
  | JArr l => TArr :: flat_map toks l ++ [TArrE]
  end.

(** bytes written for one event; a string has two possible forms (encode_string
    and encode_string_unescape) *)
Definition tok_enc (t : tok) (bs : list Z) : Prop :=
  match t with
  | TNull => bs = [JSON_NULL]
  | TBool b => bs = json_write_bool b
  | TInt z => bs = json_write_integer z
  | TReal b => bs = json_write_real b
  | TStr s => bs = json_write_raw s \/ bs = json_write_wide s
  | TObj => bs = [JSON_OBJ]
  | TObjE => bs = [JSON_OBJ_END]
  | TArr => bs = [JSON_ARRAY]
  | TArrE => bs = [JSON_ARRAY_END]
  end.

Inductive toks_enc : list tok -> list Z -> Prop :=
| te_nil : toks_enc [] []
| te_cons t ts b bs : tok_enc t b -> toks_enc ts bs -> toks_enc (t :: ts) (b ++ bs).

(** [Enc v bs]: the bytes [bs] are a stored form of [v] *)
Definition Enc (v : json) (bs : list Z) : Prop := toks_enc (toks v) bs.

(** The canonical stored form (every string written by encode_string). *)
Definition tok_bytes (t : tok) : list Z :=
  match t with
  | TNull => [JSON_NULL]
  | TBool b => json_write_bool b
  | TInt z => json_write_integer z
  | TReal b => json_write_real b
  | TStr s => json_write_raw s
  | TObj => [JSON_OBJ]
  | TObjE => [JSON_OBJ_END]
  | TArr => [JSON_ARRAY]
  | TArrE => [JSON_ARRAY_END]
  end.
Definition json_bytes (v : json) : list Z := flat_map tok_bytes (toks v).

(** A reader which rebuilds the value with the json_read_* functions, walking
    the buffer as amelie/runtime/json/json_export.c:18-127 does. *)
Fixpoint json_read (fuel : nat) (l : list Z) : res (json * list Z) :=
  match fuel with
  | O => UB
  | S f =>
    match l with
    | [] => UB
    | t :: r =>
      if t =? JSON_NULL then Ok (JNull, r)
      else if in_rng JSON_TRUE JSON_FALSE t then
        do (b, r') <- json_read_bool l; Ok (JBool b, r')
      else if in_rng JSON_REAL32 JSON_REAL64 t then
        do (b, r') <- json_read_real l; Ok (JReal b, r')
      else if in_rng JSON_INTV0 JSON_INT64 t then
        do (z, r') <- json_read_integer l; Ok (JInt z, r')
      else if in_rng JSON_STRINGV0 JSON_STRING32 t then
        do (s, r') <- json_read_raw l; Ok (JStr s, r')
      else if t =? JSON_ARRAY then
        do (xs, r') <- json_read_items f r; Ok (JArr xs, r')
      else if t =? JSON_OBJ then
        do (xs, r') <- json_read_fields f r; Ok (JObj xs, r')
      else Err
    end
  end
with json_read_items (fuel : nat) (l : list Z) : res (list json * list Z) :=
  match fuel with
  | O => UB
  | S f =>
    do (e, r) <- json_read_end JSON_ARRAY_END l;
    if (e : bool) then Ok ([], r)
    else do (v, r1) <- json_read f r; do (vs, r2) <- json_read_items f r1; Ok (v :: vs, r2)
  end
with json_read_fields (fuel : nat) (l : list Z) : res (list (list Z * json) * list Z) :=
  match fuel with
  | O => UB
  | S f =>
    do (e, r) <- json_read_end JSON_OBJ_END l;
    if (e : bool) then Ok ([], r)
    else do (k, r0) <- json_read_raw r;
         do (v, r1) <- json_read f r0; do (vs, r2) <- json_read_fields f r1;
         Ok ((k, v) :: vs, r2)
  end.

(** the value at the first field with that name *)
Fixpoint field (name : list Z) (l : list (list Z * json)) : option json :=
  match l with
  | [] => None
  | (k, v) :: r => if bytes_eqb k name then Some v else field name r
  end.

(** memcmp returns a number of the right sign *)
Definition memcmp_ok (mag : Z -> Z -> Z) : Prop :=
  forall x y, Z.sgn (mag x y) = Z.sgn (x - y).

(** no real in the value / no NaN in the value *)
Fixpoint json_no_reals (v : json) : bool :=
  match v with
  | JReal _ => false
  | JObj l => forallb (fun kv => json_no_reals (snd kv)) l
  | JArr l => forallb json_no_reals l
  | _ => true
  end.
Fixpoint json_no_nan (v : json) : bool :=
  match v with
  | JReal b => negb (dbl_is_nan b)
  | JObj l => forallb (fun kv => json_no_nan (snd kv)) l
  | JArr l => forallb json_no_nan l
  | _ => true
  end.
