(** Specification: the JSON document of a result. *)
From Verif Require Import Base DecLib TimeModel Utf8Spec JsonModel JsonSpec JsonTextSpec CodecModel ValueModel.
From Verif Require Import OutModel.
From Verif Require Export LexSpec.
Local Open Scope Z_scope.

(** the names of columns are identifiers of SQL *)
Definition identifier (n : list Z) : Prop := Forall name_char n.

(** ** The JSON document *)
(** a row: in the full format an object with the names of the columns, in the minimal format an array
    of the values, or the value alone if there is one column *)
Definition row_json (minimal : bool) (columns : list (list Z)) (vs : list json) : json :=
  if minimal then match vs with [v] => v | _ => JArr vs end else JObj (combine columns vs).
Definition is_array (v : json) : bool := match v with JArr _ => true | _ => false end.
(** the result of a JSON expression: alone or with the name of the column, in an array unless it
    is an array and may be given unwrapped *)
Definition expr_json (minimal unwrap : bool) (column : list Z) (v : json) : json :=
  let one := if minimal then v else JObj [(column, v)] in
  if unwrap && is_array v then one else JArr [one].
(** the message of an error: the last 512 bytes, behind an ellipsis and a line feed, if it is longer *)
Definition message (m : list Z) : list Z :=
  if (512 <? length m)%nat then utf8 8230 ++ [10] ++ skipn (length m - 512) m else m.

(** ** The JSON value of an SQL value *)
(** the double is neither an infinity nor a NaN *)
Definition finite (bits : Z) : Prop := 0 <= bits < 2 ^ 64 /\ bits / 2 ^ 52 mod 2 ^ 11 <> 2047.
(** the strings whose texts are lax or standard: UTF-8; standard: no control characters other than
    \b \f \n \r \t *)
Definition characters (lax : bool) (s : list Z) : Prop :=
  exists l, s = text l /\ Forall (fun c => if lax then code c else scalar c /\ (32 <= c \/ In c [8; 9; 10; 12; 13])) l.
(** [reals]: whether numbers with a fraction are allowed *)
Inductive cell_json (widen : Z -> Z) (tz : option (Z -> res Z)) (lax reals : bool) : cell -> json -> Prop :=
| cj_null : cell_json widen tz lax reals (CVal VNull) JNull
| cj_bool z : cell_json widen tz lax reals (CVal (VBool z)) (JBool (0 <? z))
| cj_int z : - 2 ^ 63 <= z < 2 ^ 63 -> cell_json widen tz lax reals (CVal (VInt z)) (JInt z)
| cj_double d : reals = true -> finite d -> cell_json widen tz lax reals (CVal (VDouble d)) (JReal d)
| cj_string s : characters lax s -> cell_json widen tz lax reals (CVal (VString s)) (JStr s)
| cj_json v bs : json_wf v = true -> json_no_reals v = true -> strings_ok (characters lax) v -> Enc v bs ->
    cell_json widen tz lax reals (CJson bs) v
| cj_date d s : date_get d = Ok s -> cell_json widen tz lax reals (CVal (VDate d)) (JStr s)
| cj_timestamp z s : timestamp_get z tz = Ok s -> cell_json widen tz lax reals (CVal (VTimestamp z)) (JStr s)
| cj_interval m d us s : interval_get (Iv m d us) = Ok s -> cell_json widen tz lax reals (CVal (VInterval m d us)) (JStr s)
| cj_vector v : reals = true -> Forall (fun e => finite (widen e)) v ->
    cell_json widen tz lax reals (CVal (VVector v)) (JArr (map (fun e => JReal (widen e)) v))
| cj_uuid a b u : uuid_ok u -> a = ua u + 2 ^ 32 * ub u + 2 ^ 48 * uc u -> b = ud u + 2 ^ 16 * ue u + 2 ^ 32 * uf u ->
    cell_json widen tz lax reals (CVal (VUuid a b)) (JStr (uuid_get u)).
(** a row of the result has a value for every column *)
Definition row_cells (widen : Z -> Z) (tz : option (Z -> res Z)) (lax reals : bool) (columns : list (list Z)) (row : list cell) (vs : list json) : Prop :=
  Forall2 (cell_json widen tz lax reals) (firstn (length columns) row) vs /\ length vs = length columns.
Definition rows_of (r : result) : list (list cell) := match r with Store rows => rows | Row row => [row] end.

(** ** JSON texts with numbers that have a fraction or an exponent *)
(** RFC 8259, 6 *)
Definition number (t : list Z) : Prop :=
  exists z i f e, t = i ++ f ++ e /\ jint z i /\
    (f = [] \/ exists ds, f = 46 :: ds /\ ds <> [] /\ forallb is_digit ds = true) /\
    (e = [] \/ exists c s ds, e = c :: s ++ ds /\ In c [69; 101] /\ In s [[]; [43]; [45]] /\ ds <> [] /\ forallb is_digit ds = true).
(** the texts of a value, [g] is the text of a double *)
Inductive otext (g : Z -> list Z) (lax : bool) : json -> list Z -> Prop :=
| ot_std v t : jtext lax false v t -> otext g lax v t
| ot_real d : number (g d) -> otext g lax (JReal d) (g d)
| ot_arr vs t : oitems g lax vs t -> otext g lax (JArr vs) (91 :: t ++ [93])
| ot_obj fs t : ofields g lax fs t -> otext g lax (JObj fs) (123 :: t ++ [125])
with oitems (g : Z -> list Z) (lax : bool) : list json -> list Z -> Prop :=
| oi_one v w1 t w2 : ws w1 -> ws w2 -> otext g lax v t -> oitems g lax [v] (w1 ++ t ++ w2)
| oi_more v w1 t w2 vs ts : ws w1 -> ws w2 -> otext g lax v t -> oitems g lax vs ts ->
    oitems g lax (v :: vs) (w1 ++ t ++ w2 ++ 44 :: ts)
with ofields (g : Z -> list Z) (lax : bool) : list (list Z * json) -> list Z -> Prop :=
| of_one k tk v w1 w2 w3 t w4 : ws w1 -> ws w2 -> ws w3 -> ws w4 -> jstr lax false k tk -> otext g lax v t ->
    ofields g lax [(k, v)] (w1 ++ quoted tk ++ w2 ++ 58 :: w3 ++ t ++ w4)
| of_more k tk v w1 w2 w3 t w4 fs ts : ws w1 -> ws w2 -> ws w3 -> ws w4 -> jstr lax false k tk -> otext g lax v t ->
    ofields g lax fs ts -> ofields g lax ((k, v) :: fs) (w1 ++ quoted tk ++ w2 ++ 58 :: w3 ++ t ++ w4 ++ 44 :: ts).
