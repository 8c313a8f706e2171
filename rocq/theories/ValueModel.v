(** Model of value comparison and of the logical operators of expressions:
    amelie/vm/value/compare.h, amelie/vm/set/in.c, all.c, any.c, amelie/vm/vm/vm.c.

    JSON values are the subject of JsonModel.v and are left out here.  A double or float
    is its IEEE-754 bit pattern (a double: 64 bits, an element of a vector: 32). *)
From Verif Require Import Base JsonModel.

(** server/type.h:14-36 (materialized types) *)
Inductive value :=
| VNull
| VBool (z : Z)
| VInt (z : Z)
| VDouble (d : Z)
| VString (s : list Z)
| VDate (z : Z)
| VTimestamp (z : Z)
| VInterval (m d us : Z)
| VVector (v : list Z)
| VUuid (a b : Z).

(** server/type.h:17-27: the enumeration order; TYPE_JSON is 5 *)
Definition vtype (v : value) : Z :=
  match v with
  | VNull => 0 | VBool _ => 1 | VInt _ => 2 | VDouble _ => 3 | VString _ => 4
  | VDate _ => 6 | VTimestamp _ => 7 | VInterval _ _ _ => 8 | VVector _ => 9 | VUuid _ _ => 10
  end.

(** runtime/lib/misc.h:14-30 compare_int32, compare_int64, compare_uint64: (a > b) - (a < b) *)
Definition compare_int (a b : Z) : Z := Z.b2z (b <? a) - Z.b2z (a <? b).
(** runtime/lib/misc.h:32-36 compare_float on 32-bit patterns: NaN is neither above nor
    below anything (compare_double, misc.h:38-42, is in JsonModel.v) *)
Definition flt_is_nan (b : Z) : bool := 2139095040 <? b mod 2 ^ 31.
Definition flt_key (b : Z) : Z := if b <? 2 ^ 31 then b else 2 ^ 31 - b.
Definition compare_float (a b : Z) : Z :=
  if flt_is_nan a || flt_is_nan b then 0 else compare_int (flt_key a) (flt_key b).
(** runtime/lib/uuid.h:37-44 uuid_compare *)
Definition uuid_compare (a1 a2 b1 b2 : Z) : Z :=
  let rc := compare_int a1 b1 in if negb (rc =? 0) then rc else compare_int a2 b2.
(** runtime/lib/interval.c:289-299 interval_compare *)
Definition interval_compare (m1 d1 u1 m2 d2 u2 : Z) : Z :=
  let rc := compare_int m1 m2 in
  if negb (rc =? 0) then rc else
  let rc := compare_int d1 d2 in
  if negb (rc =? 0) then rc else compare_int u1 u2.
(** runtime/lib/vector.c:23-36 vector_compare *)
Fixpoint vector_loop (a b : list Z) : Z :=
  match a, b with
  | x :: a', y :: b' => let rc := compare_float x y in if negb (rc =? 0) then rc else vector_loop a' b'
  | _, _ => 0
  end.
Definition vector_compare (a b : list Z) : Z :=
  let rc := compare_int (Z.of_nat (length a)) (Z.of_nat (length b)) in
  if negb (rc =? 0) then rc else vector_loop a b.

Section Cmp.
(** what memcmp returns for two differing bytes (see JsonModel.v) *)
Variable mag : Z -> Z -> Z.

(** vm/value/compare.h:46-84 value_compare *)
Definition value_compare (a b : value) : Z :=
  if negb (vtype a =? vtype b) then (if vtype b <? vtype a then 1 else -1)
  else match a, b with
  | VNull, VNull => 0
  | VBool x, VBool y | VInt x, VInt y | VDate x, VDate y | VTimestamp x, VTimestamp y => compare_int x y
  | VDouble x, VDouble y => compare_double x y
  | VString x, VString y => str_compare_fn mag x y
  | VInterval m d u, VInterval m' d' u' => interval_compare m d u m' d' u'
  | VVector x, VVector y => vector_compare x y
  | VUuid x1 x2, VUuid y1 y2 => uuid_compare x1 x2 y1 y2
  | _, _ => -1
  end.

(** vm/value/compare.h:86-98 store_compare: [order] = keys_order (true: ascending),
    a row is the list of its keys *)
Fixpoint store_compare (order : list bool) (a b : list value) : Z :=
  match order, a, b with
  | asc :: order', x :: a', y :: b' =>
    let rc := value_compare x y in
    if negb (rc =? 0) then (if asc then rc else - rc) else store_compare order' a' b'
  | _, _, _ => 0
  end.
(** vm/value/compare.h:100-110 store_compare_keys *)
Fixpoint store_compare_keys (a b : list value) : bool :=
  match a, b with
  | x :: a', y :: b' => if negb (value_compare x y =? 0) then false else store_compare_keys a' b'
  | _, _ => true
  end.

(** vm/value/compare.h:14-44 value_is_true.  TYPE_INTERVAL shares the case of
    TYPE_VECTOR: the first word of the interval is used as the address of a vector *)
Definition is_true (v : value) : res bool :=
  match v with
  | VNull => Ok false
  | VInt z | VBool z | VDate z | VTimestamp z => Ok (0 <? z)
  | VDouble d => Ok (negb (dbl_is_nan d) && (0 <? dbl_key d))
  | VString s => Ok (negb (Nat.eqb (length s) 0))
  | VInterval _ _ _ => UB
  | VVector v => Ok (0 <? Z.of_nat (length v))
  | VUuid _ _ => Ok true
  end.
Definition vbool (b : bool) : value := VBool (if b then 1 else 0).

(** vm/vm/vm.c:703-710 cand; vm/value/null.h:42-51 value_null.  C's && does not
    evaluate its second operand when the first is false *)
Definition op_and (a b : value) : res value :=
  match a, b with
  | VNull, _ | _, VNull => Ok VNull
  | _, _ => do x <- is_true a; if x then do y <- is_true b; Ok (vbool y) else Ok (vbool false)
  end.
(** vm/vm/vm.c:712-722 cor *)
Definition op_or (a b : value) : res value :=
  match a, b with
  | VNull, VNull => Ok VNull
  | _, _ => do x <- is_true a; if x then Ok (vbool true) else do y <- is_true b; Ok (vbool y)
  end.
(** vm/vm/vm.c:724-730 cnot *)
Definition op_not (a : value) : res value :=
  match a with
  | VNull => Ok VNull
  | _ => do x <- is_true a; Ok (vbool (negb x))
  end.

(** vm/set/in.c: an element of the list is a value or the rows of a subquery *)
Inductive in_item := InValue (v : value) | InRows (l : list value).
(* in.c:43-54: true = return *)
Fixpoint in_rows (v : value) (l : list value) (has_null : bool) : bool * bool :=
  match l with
  | [] => (false, has_null)
  | VNull :: r => in_rows v r true
  | x :: r => if value_compare v x =? 0 then (true, has_null) else in_rows v r has_null
  end.
(* in.c:30-63 *)
Fixpoint in_items (v : value) (l : list in_item) (has_null : bool) : bool * bool :=
  match l with
  | [] => (false, has_null)
  | InValue VNull :: r => in_items v r true
  | InValue x :: r => if value_compare x v =? 0 then (true, has_null) else in_items v r has_null
  | InRows rows :: r =>
    let '(found, hn) := in_rows v rows has_null in
    if found then (true, hn) else in_items v r hn
  end.
(** vm/set/in.c:20-69 value_in *)
Definition value_in (v : value) (l : list in_item) : value :=
  match v with
  | VNull => VNull
  | _ => let '(found, hn) := in_items v l false in
         if found then vbool true else if hn then VNull else vbool false
  end.

(** vm/set/all.c, any.c *)
Inductive match_op := EQU | NEQU | LT | LTE | GT | GTE.
Definition match_rc (op : match_op) (rc : Z) : bool :=
  match op with
  | EQU => rc =? 0 | NEQU => negb (rc =? 0)
  | LT => rc <? 0 | LTE => rc <=? 0 | GT => 0 <? rc | GTE => 0 <=? rc
  end.
(* all.c:132-226 value_all_equ .. value_all_gt (and 20-131 for an array): (match, has_null) *)
Fixpoint all_loop (op : match_op) (v : value) (l : list value) (has_null : bool) : bool * bool :=
  match l with
  | [] => (true, has_null)
  | VNull :: r => all_loop op v r true
  | x :: r => if negb (match_rc op (value_compare v x)) then (false, has_null) else all_loop op v r has_null
  end.
(* any.c:132-228 *)
Fixpoint any_loop (op : match_op) (v : value) (l : list value) (has_null : bool) : bool * bool :=
  match l with
  | [] => (false, has_null)
  | VNull :: r => any_loop op v r true
  | x :: r => if match_rc op (value_compare v x) then (true, has_null) else any_loop op v r has_null
  end.
(** all.c:228-302 value_all; called by vm.c:1478-1485 only if no operand is NULL
    ([None]: the right operand is NULL) *)
Definition op_all (op : match_op) (v : value) (l : option (list value)) : value :=
  match v, l with
  | VNull, _ | _, None => VNull
  | _, Some rows =>
    let '(m, hn) := all_loop op v rows false in
    if m then (if hn then VNull else vbool true) else vbool false
  end.
(** any.c:230-302 value_any; vm.c:1487-1494 *)
Definition op_any (op : match_op) (v : value) (l : option (list value)) : value :=
  match v, l with
  | VNull, _ | _, None => VNull
  | _, Some rows =>
    let '(m, hn) := any_loop op v rows false in
    if m then vbool true else if hn then VNull else vbool false
  end.
End Cmp.

(** vm/vm/vm.c:762-786 the operator = on integers and doubles (cequii, cequif, cequfi,
    cequff); C converts the integer to double.  Only integers up to 2^53, which are
    converted exactly, are modelled *)
Definition double_of_int (z : Z) : Z :=
  if z =? 0 then 0 else
  let m := Z.abs z in let e := Z.log2 m in
  (if z <? 0 then 2 ^ 63 else 0) + (e + 1023) * 2 ^ 52 + (m * 2 ^ (52 - e) - 2 ^ 52).
Definition dbl_equ (a b : Z) : bool := negb (dbl_is_nan a) && negb (dbl_is_nan b) && (dbl_key a =? dbl_key b).
Definition op_equ_num (a b : value) : option bool :=
  match a, b with
  | VInt x, VInt y => Some (x =? y)
  | VInt x, VDouble y => Some (dbl_equ (double_of_int x) y)
  | VDouble x, VInt y => Some (dbl_equ x (double_of_int y))
  | VDouble x, VDouble y => Some (dbl_equ x y)
  | _, _ => None
  end.
