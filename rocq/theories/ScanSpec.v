(** What a user expects of WHERE: the rows for which the condition is true, whatever the indexes are. *)
From Coq Require Import Permutation.
From Verif Require Import Base JsonModel RowModel RowSpec ScanModel.

(** ** the meaning of WHERE for the values [vs] of a row *)
Definition name_in (vs : list dval) (n : name) : dval :=
  match n_own n with Some k => nth k vs DNull | None => n_value n end.
Definition operand_in (vs : list dval) (o : operand) : dval :=
  match o with
  | OName n => name_in vs n
  | OLit v => v
  | OExpr names inner f => f (map (name_in vs) (names ++ inner))
  end.
Definition sat (mixed : cmpop -> dval -> dval -> bool) (o : cmpop) (v w : dval) : Prop :=
  match v, w with
  | DNull, _ | _, DNull => False
  | DInt _, DInt _ | DString _, DString _ | DUuid _ _, DUuid _ _ =>
      match o with
      | OpEq => val_order v w = Eq
      | OpLt => val_order v w = Lt
      | OpLe => val_order v w <> Gt
      | OpGt => val_order v w = Gt
      | OpGe => val_order v w <> Lt
      end
  | _, _ => mixed o v w = true
  end.
Fixpoint is_true mixed (vs : list dval) (c : cond) : Prop :=
  match c with
  | CAnd a b => is_true mixed vs a /\ is_true mixed vs b
  | CCmp o l r => sat mixed o (operand_in vs l) (operand_in vs r)
  | CBetween e x y => sat mixed OpGe (operand_in vs e) (operand_in vs x) /\ sat mixed OpLe (operand_in vs e) (operand_in vs y)
  | COther names f => f (map (name_in vs) names) = true
  end.
Definition where_true mixed (vs : list dval) (w : option cond) : Prop :=
  match w with None => True | Some c => is_true mixed vs c end.

(** ** the rows of a table *)
Definition rows_of (t : table) : list (list Z) := concat (map (fun tp => hd [] (tp_rows tp)) (t_parts t)).
(** a list of rows in the order of an index: of a tree ascending by key, of a hash in any order; two rows
    never have the same key (the key of an index that is not unique includes the primary key,
    parse_index.c:84-86) *)
Definition in_order (cols : list column) (x : index) (l : list (list Z)) : Prop :=
  ForallOrdPairs (fun a b => forall va vb, made cols va a -> made cols vb b ->
    if x_hash x then key_of (x_keys x) va <> key_of (x_keys x) vb else key_order_of (x_keys x) va vb = Lt) l.
Definition primary (t : table) : list nat := match t_idx t with x :: _ => x_keys x | [] => [] end.
Record table_ok (cols : list column) (t : table) : Prop := {
  to_idx : t_idx t <> [];
  to_keys : forall x, In x (t_idx t) -> x_keys x <> [] /\ NoDup (x_keys x) /\ key_ok cols (x_keys x);
  to_cols : Z.of_nat (length cols) <= 65535;
  to_parts : forall tp, In tp (t_parts t) ->
    length (tp_rows tp) = length (t_idx t) /\
    (* every index has all rows of the partition *)
    (forall i l, nth_error (tp_rows tp) i = Some l -> Permutation l (hd [] (tp_rows tp))) /\
    (forall i x l, nth_error (t_idx t) i = Some x -> nth_error (tp_rows tp) i = Some l -> in_order cols x l) /\
    (* every row is in the partition of its primary key *)
    (forall r, In r (hd [] (tp_rows tp)) -> exists vs p, made cols vs r /\ part_mapping_map (t_map t) cols (primary t) r = Ok (Some p) /\ p_id p = p_id (tp_part tp));
  to_ids : NoDup (map (fun tp => p_id (tp_part tp)) (t_parts t));
  (* every hash belongs to a partition *)
  to_map : forall h, exists p, map_at (t_map t) h = Some p;
  (* timestamps before 1970 do not exist *)
  to_time : forall r vs, In r (rows_of t) -> made cols vs r -> forall x, In x (t_idx t) -> no_negative_time cols (x_keys x) vs }.

(** ** the conditions of WHERE *)
(** the comparisons that must all be true *)
Fixpoint comparisons (c : cond) : list (cmpop * operand * operand) :=
  match c with
  | CAnd a b => comparisons a ++ comparisons b
  | CCmp o l r => [(o, l, r)]
  | CBetween e x y => [(OpGe, e, x); (OpLe, e, y)]
  | COther _ _ => []
  end.
Definition cmps (w : option cond) := match w with Some c => comparisons c | None => [] end.
Definition own_column (o : operand) (k : nat) : Prop := exists n, o = OName n /\ n_own n = Some k.
Definition all_names (o : operand) : list name :=
  match o with OName n => [n] | OLit _ => [] | OExpr names inner _ => names ++ inner end.
Definition uses_own (o : operand) : Prop := exists n, In n (all_names o) /\ n_own n <> None.
(** an operand compared with a column of the table *)
Definition compared (w : option cond) (k : nat) (v : operand) : Prop :=
  exists o l r, In (o, l, r) (cmps w) /\ ((own_column l k /\ v = r) \/ (own_column r k /\ v = l)).
(** a condition [column < v] *)
Definition upper_bound (w : option cond) (k : nat) : Prop :=
  exists o l r, In (o, l, r) (cmps w) /\
    ((own_column l k /\ (o = OpLt \/ o = OpLe)) \/ (own_column r k /\ (o = OpGt \/ o = OpGe))).
Fixpoint cond_operands (c : cond) : list operand :=
  match c with
  | CAnd a b => cond_operands a ++ cond_operands b
  | CCmp _ l r => [l; r]
  | CBetween e x y => [e; x; y]
  | COther names _ => [OExpr names [] (fun _ => DNull)]
  end.
Definition operands (w : option cond) := match w with Some c => cond_operands c | None => [] end.
Fixpoint betweens (c : cond) : list (operand * operand * operand) :=
  match c with CAnd a b => betweens a ++ betweens b | CBetween e x y => [(e, x, y)] | _ => [] end.
Definition betweens_of (w : option cond) := match w with Some c => betweens c | None => [] end.

(** ** what the code relies on without checking it *)
(** a name of the WHERE is a column of the table *)
Definition names_exist (cols : list column) (w : option cond) : Prop :=
  forall o n k, In o (operands w) -> In n (all_names o) -> n_own n = Some k -> (k < length cols)%nat.
(** no name is both a column of the table and of an outer table *)
Definition no_shadowing (w : option cond) : Prop :=
  forall o n, In o (operands w) -> In n (all_names o) -> n_outer n = true -> n_own n = None.
(** no subquery inside of a comparison uses a column of the table *)
Definition subqueries_ok (w : option cond) : Prop :=
  forall names inner f n, In (OExpr names inner f) (operands w) -> In n inner -> n_own n = None.
(** [column BETWEEN x AND y]: x does not use a column of the table; [x BETWEEN y AND column]: neither does x *)
Definition between_ok (w : option cond) : Prop :=
  forall e x y, In (e, x, y) (betweens_of w) -> (forall k, own_column e k -> ~ uses_own x) /\ (forall k, own_column y k -> ~ uses_own e).
(** a column of an index is compared with values of its type: not NULL, no double for an int, no int64
    that is not an int32; and the values are not too long *)
Definition typed (cols : list column) (t : table) (w : option cond) : Prop :=
  forall x k c v, In x (t_idx t) -> In k (x_keys x) -> nth_error cols k = Some c -> compared w k v -> ~ uses_own v ->
    holds c (operand_in [] v) /\
    (c_type c = TUuid -> exists u, v = OLit u) /\
    Z.of_nat (length cols) * (weight (operand_in [] v) + 20) + 7 <= 2147483647.
(** no upper bound for the first column of a hash index *)
Definition hash_ok (t : table) (w : option cond) : Prop :=
  forall x k ks, In x (t_idx t) -> x_hash x = true -> x_keys x = k :: ks -> ~ upper_bound w k.
Definition where_ok (cols : list column) (t : table) (w : option cond) : Prop :=
  names_exist cols w /\ no_shadowing w /\ subqueries_ok w /\ between_ok w /\ typed cols t w /\ hash_ok t w.
