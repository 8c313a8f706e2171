(** What a user expects of the rows of a table. *)
From Coq Require Import Permutation.
From Verif Require Import Base JsonModel JsonSpec.
From Verif Require Import RowModel.

(** the types of columns and their sizes in bytes; 0: variable *)
Definition col_ok (c : column) : Prop :=
  match c_type c with
  | TBool => c_size c = 1
  | TInt => c_size c = 1 \/ c_size c = 2 \/ c_size c = 4 \/ c_size c = 8
  | TDouble => c_size c = 4 \/ c_size c = 8
  | TString | TJson | TVector => c_size c = 0
  | TDate => c_size c = 4
  | TTimestamp => c_size c = 8
  | TInterval | TUuid => c_size c = 16
  end.

(** an identity column is an int (compiler/parser/parse_table.c:186-188) *)
Definition column_ok (c : column) : Prop :=
  col_ok c /\ (c_identity c = true -> c_type c = TInt /\ (c_size c = 4 \/ c_size c = 8)).

Definition signed (bytes z : Z) : Prop := - 2 ^ (8 * bytes - 1) <= z < 2 ^ (8 * bytes - 1).
(** a 32-bit float that is not NaN, as its bits *)
Definition float_bits (f : Z) : Prop := 0 <= f < 2 ^ 32 /\ f mod 2 ^ 31 <= 2139095040.

(** the values (other than NULL) of a column *)
Definition holds (c : column) (v : dval) : Prop :=
  match c_type c, v with
  | TBool, DInt z => z = 0 \/ z = 1
  | (TInt | TDate | TTimestamp), DInt z => signed (c_size c) z
  | TDouble, DDouble b => if c_size c =? 4 then exists f, float_bits f /\ b = dbl_of_flt f else 0 <= b < 2 ^ 64
  | TString, DString s => str_wf s = true
  | TJson, DJson s => exists j, json_wf j = true /\ Enc j s
  | TInterval, DInterval m d us => signed 4 m /\ signed 4 d /\ signed 8 us
  | TVector, DVector f => Forall (fun x => 0 <= x < 2 ^ 32) f /\ Z.of_nat (length f) < 2 ^ 29
  | TUuid, DUuid a b => 0 <= a < 2 ^ 64 /\ 0 <= b < 2 ^ 64
  | _, _ => False
  end.
(** ... and NULL where it is allowed *)
Definition fits (c : column) (v : dval) : Prop := (v = DNull /\ c_not_null c = false) \/ holds c v.

(** an upper bound of the bytes of a value *)
Definition weight (v : dval) : Z :=
  match v with
  | DNull => 0
  | DString s => 5 + zlen s
  | DJson s => zlen s
  | DVector f => 4 + 4 * Z.of_nat (length f)
  | _ => 16
  end.
(** rows are smaller than 2 GB and have at most 65535 columns *)
Definition small (vals : list dval) : Prop :=
  fold_right Z.add 0 (map weight vals) + 4 * Z.of_nat (length vals) + 7 <= 2147483647 /\ Z.of_nat (length vals) <= 65535.

(** the value meant by a value of an INSERT: a reference stands for the value it refers to, a NULL in
    an identity column for the generated number *)
Definition meant (refs : list dval) (generated : Z) (c : column) (v : dval) : dval :=
  let x := match v with DRef i => nth i refs DNull | _ => v end in
  match x with DNull => if c_identity c then DInt generated else DNull | _ => x end.
Definition ref_ok (refs : list dval) (v : dval) : Prop :=
  match v with DRef i => exists x, nth_error refs i = Some x /\ (forall j, x <> DRef j) | _ => True end.

(** at most one identity column *)
Definition one_identity (cols : list column) : Prop := (length (filter c_identity cols) <= 1)%nat.

(** the values after an UPDATE *)
Fixpoint assoc (i : Z) (ups : list (Z * dval)) : option dval :=
  match ups with [] => None | (o, v) :: r => if o =? i then Some v else assoc i r end.
Definition updated (vals : list dval) (ups : list (Z * dval)) : list dval :=
  map (fun iv => match assoc (Z.of_nat (fst iv)) ups with Some v => v | None => snd iv end)
      (combine (seq 0 (length vals)) vals).

(** ** keys *)
(** the types of a key: int32, int64, uuid, timestamp, text (compiler/parser/parse_table.c:36-41) *)
Definition key_col (c : column) : Prop :=
  match c_type c with
  | TInt => c_size c = 4 \/ c_size c = 8
  | TTimestamp => c_size c = 8
  | TString => c_size c = 0
  | TUuid => c_size c = 16
  | _ => False
  end.
(** the order of the values of one type *)
Fixpoint bytes_order (a b : list Z) : comparison :=
  match a, b with
  | [], [] => Eq
  | [], _ :: _ => Lt
  | _ :: _, [] => Gt
  | x :: a', y :: b' => match x ?= y with Eq => bytes_order a' b' | c => c end
  end.
Definition val_order (a b : dval) : comparison :=
  match a, b with
  | DInt x, DInt y => x ?= y
  | DString x, DString y => bytes_order x y
  | DUuid a1 a2, DUuid b1 b2 => match a1 ?= b1 with Eq => a2 ?= b2 | c => c end
  | _, _ => Eq
  end.
(** lexicographic, column by column of the key *)
Fixpoint key_order_of (ks : list nat) (a b : list dval) : comparison :=
  match ks with
  | [] => Eq
  | k :: ks' => match val_order (nth k a DNull) (nth k b DNull) with Eq => key_order_of ks' a b | c => c end
  end.
Definition sign (c : comparison) : Z := match c with Lt => -1 | Eq => 0 | Gt => 1 end.

(** the least value of a column of a key *)
Definition least (c : column) : dval :=
  match c_type c with
  | TInt => DInt (- 2 ^ (8 * c_size c - 1))
  | TTimestamp => DInt 0
  | TUuid => DUuid 0 0
  | _ => DString []
  end.
(** timestamps before 1970 do not exist (sql.h: TIMESTAMP_MIN) *)
Definition no_negative_time (cols : list column) (ks : list nat) (vs : list dval) : Prop :=
  forall k c z, In k ks -> nth_error cols k = Some c -> c_type c = TTimestamp -> nth_error vs k = Some (DInt z) -> 0 <= z.
(** the given values of a search key against the key of a row, lexicographic *)
Fixpoint prefix_order (ks : list nat) (vals vs : list dval) : comparison :=
  match ks, vals with
  | k :: ks', v :: vals' => match val_order v (nth k vs DNull) with Eq => prefix_order ks' vals' vs | c => c end
  | _, _ => Eq
  end.

(** ** the rows of a table *)
(** memory of every size, with any contents *)
Definition heap_ok (mem : Z -> list Z) : Prop := forall n, 0 <= n -> zlen (mem n) = n.
(** the values of an INSERT as the user means them *)
Definition meant_row (refs : list dval) (generated : Z) (cols : list column) (vals : list dval) : list dval :=
  map (fun cv => meant refs generated (fst cv) (snd cv)) (combine cols vals).
(** an INSERT whose values fit the columns *)
Definition insert_ok (cols : list column) (refs vals : list dval) (generated : Z) : Prop :=
  length vals = length cols /\ Forall column_ok cols /\ one_identity cols /\ Forall (ref_ok refs) vals /\
  Forall2 fits cols (meant_row refs generated cols vals) /\ small (meant_row refs generated cols vals).
(** an UPDATE of columns that are not identity columns, with values that fit *)
Definition update_ok (cols : list column) (vs : list dval) (ups : list (Z * dval)) : Prop :=
  Forall (fun u => 0 <= fst u /\ exists c, nth_error cols (Z.to_nat (fst u)) = Some c /\ c_identity c = false /\ fits c (snd u)) ups /\
  small (updated vs ups).
(** the rows a table may contain, with the values a user expects of them: an INSERT, an UPDATE, or an
    ALTER TABLE ADD COLUMN, which does not change the row *)
Inductive made : list column -> list dval -> list Z -> Prop :=
| made_insert mem cols refs vals generated identity row :
    heap_ok mem -> insert_ok cols refs vals generated ->
    row_get_identity (first_identity cols 0) refs vals generated = Ok identity ->
    row_create mem cols vals refs (Some identity) = Ok row ->
    made cols (meant_row refs generated cols vals) row
| made_update mem cols vs src ups sorted row :
    heap_ok mem -> made cols vs src -> update_ok cols vs ups ->
    sort_updates ups [] = Some sorted ->
    row_update mem src cols sorted = Ok row ->
    made cols (updated vs ups) row
| made_add cols vs row c :
    made cols vs row -> column_ok c -> c_not_null c = false -> one_identity (cols ++ [c]) ->
    made (cols ++ [c]) (vs ++ [DNull]) row.

(** the columns of a primary key or of an index *)
Definition key_ok (cols : list column) (ks : list nat) : Prop :=
  forall k, In k ks -> exists c, nth_error cols k = Some c /\ key_col c /\ c_not_null c = true.
(** the values of the key of a row *)
Definition key_of (ks : list nat) (vs : list dval) : list dval := map (fun k => nth k vs DNull) ks.
