(** Model of how a SELECT, UPDATE or DELETE finds its rows: the conditions of WHERE which give bounds
    to the key of an index (amelie/compiler/plan/path_op.h, path.c, path_prepare.c), the partitions the
    statement is sent to (compiler/compiler/compiler.c:135-218, vm/vm/command.c:108-151) and the scan
    of an index (compiler/compiler/scan.c, vm/vm/command.c:378-425, db/part/cursor.c). *)
From Verif Require Import Base JsonModel RowModel.

(** ** expressions *)
(** A name of the WHERE, as the targets of FROM see it.  [n_own]: the column of the scanned table with
    this name, which is what emit_name and emit_name_compound (compiler/compiler/emit_expr.c:241-410)
    read if there is one; [n_outer]: whether path_column or path_column_compound (path.c:135-193) find
    the name in the previous targets of FROM or in the outer queries; [n_value]: the value of that outer
    column during the scan.  The text of names is not modelled. *)
Record name := mkname { n_own : option nat; n_outer : bool; n_value : dval }.
(** An operand of a comparison: a name, a literal, or any other expression: [names] are its names,
    [inner] the names inside of its subqueries, which are in the list of names of the subquery's own
    FROM (parse_select.c:157), and the value is a function of the values of all of them. *)
Inductive operand :=
| OName (n : name)
| OLit (v : dval)
| OExpr (names inner : list name) (f : list dval -> dval).
Inductive cmpop := OpEq | OpLt | OpLe | OpGt | OpGe.
(** WHERE; OR, NOT, IN, LIKE and every other condition are [COther] *)
Inductive cond :=
| CAnd (a b : cond)
| CCmp (o : cmpop) (l r : operand)
| CBetween (e x y : operand)
| COther (names : list name) (f : list dval -> bool).

(** emit_expr.c:186 a column is read from the cursor of its target; the register of a cursor that is
    not open yet is -1 (target.h) *)
Definition name_value (own : option (list dval)) (n : name) : res dval :=
  match n_own n with
  | None => Ok (n_value n)
  | Some k => match own with
              | None => UB
              | Some vs => match nth_error vs k with Some v => Ok v | None => UB end
              end
  end.
Fixpoint names_values (own : option (list dval)) (l : list name) : res (list dval) :=
  match l with
  | [] => Ok []
  | n :: l' => do v <- name_value own n; do r <- names_values own l'; Ok (v :: r)
  end.
Definition operand_value (own : option (list dval)) (o : operand) : res dval :=
  match o with
  | OName n => name_value own n
  | OLit v => Ok v
  | OExpr names inner f => do vs <- names_values own (names ++ inner); Ok (f vs)
  end.

Definition op_holds (o : cmpop) (c : comparison) : bool :=
  match o, c with
  | OpEq, Eq => true
  | OpLt, Lt => true
  | OpLe, (Lt | Eq) => true
  | OpGt, Gt => true
  | OpGe, (Gt | Eq) => true
  | _, _ => false
  end.
(** the order of two strings *)
Fixpoint str_order (a b : list Z) : comparison :=
  match a, b with
  | [], [] => Eq
  | [], _ :: _ => Lt
  | _ :: _, [] => Gt
  | x :: a', y :: b' => match x ?= y with Eq => str_order a' b' | c => c end
  end.
(** cast.c:26-340: the comparison of two ints, timestamps, strings or uuids; NULL if one is NULL
    (CNULLOP, vm.c); [mixed]: of values of other types, such as an int and a double *)
Definition compare_values (mixed : cmpop -> dval -> dval -> bool) (o : cmpop) (v w : dval) : bool :=
  match v, w with
  | DNull, _ | _, DNull => false
  | DInt x, DInt y => op_holds o (x ?= y)
  | DString x, DString y => op_holds o (str_order x y)
  | DUuid a1 a2, DUuid b1 b2 => op_holds o (match a1 ?= b1 with Eq => a2 ?= b2 | c => c end)
  | _, _ => mixed o v w
  end.
Definition cmp_value mixed (own : option (list dval)) (o : cmpop) (l r : operand) : res bool :=
  do v <- operand_value own l; do w <- operand_value own r; Ok (compare_values mixed o v w).
(** whether WHERE is true for a row; errors of expressions are not modelled *)
Fixpoint cond_value mixed (own : option (list dval)) (c : cond) : res bool :=
  match c with
  | CAnd a b => do x <- cond_value mixed own a; do y <- cond_value mixed own b; Ok (x && y)
  | CCmp o l r => cmp_value mixed own o l r
  | CBetween e x y => do p <- cmp_value mixed own OpGe e x; do q <- cmp_value mixed own OpLe e y; Ok (p && q)
  | COther names f => do vs <- names_values own names; Ok (f vs)
  end.

(** ** path_op.h *)
(** A comparison and the names of its range of the list of names of FROM: those of the left operand
    are in the range if [po_lin], those of the right one if [po_rin], and [po_extra] are others. *)
Record pathop := mkpo { po_op : cmpop; po_l : operand; po_r : operand; po_extra : list name; po_lin : bool; po_rin : bool }.
Definition names_of (o : operand) : list name :=
  match o with OName n => [n] | OLit _ => [] | OExpr names _ _ => names end.
(** path_op.h:49-104 path_ops_add.  The end of the range of the left side of AND is the number of names
    when AND is parsed (parse_expr.c:944-951), which is the names of the left side.  For BETWEEN it is
    the number of names after the expression and before both bounds (parse_expr.c:986-990): the
    comparison [expr >= x] has only the names of expr in its range, [expr <= y] those of x and y. *)
Fixpoint path_ops (c : cond) : list pathop :=
  match c with
  | CAnd a b => path_ops a ++ path_ops b
  | CCmp o l r => [mkpo o l r [] true true]
  | CBetween e x y => [mkpo OpGe e x [] true false; mkpo OpLe e y (names_of x) false true]
  | COther _ _ => []
  end.

(** ** path.c *)
Section Path.
Variable mag : Z -> Z -> Z.   (* memcmp, see JsonModel.v *)
Variable junk : operand -> Z. (* what [integer] or the order of [string] of an Ast of another kind is *)

(** path.c:44-66 path_ast_compare; [string] of an int or a double is no pointer (ast.h:22-32).  The
    text of a timestamp is in [string]: its [integer] is a pointer. *)
Definition path_ast_compare (a b : operand) : res Z :=
  match a with
  | OLit (DInt x) =>
      let y := match b with OLit (DInt y) => y | _ => junk b end in
      Ok (if x =? y then 0 else if y <? x then 1 else -1)
  | OLit (DString x) =>
      match b with
      | OLit (DString y) => Ok (str_compare_fn mag x y)
      | OLit (DInt _) | OLit (DDouble _) => UB
      | _ => Ok (junk b)
      end
  | OLit (DUuid a1 a2) =>
      match b with
      | OLit (DUuid b1 b2) => Ok (if cmp3 a1 b1 =? 0 then cmp3 a2 b2 else cmp3 a1 b1)
      | OLit (DInt _) | OLit (DDouble _) => UB
      | _ => Err
      end
  | _ => Ok 0
  end.

(** path.h:30-37 PathKey *)
Record pathkey := mkpk { pk_start : option (cmpop * operand); pk_stop : option (cmpop * operand * operand) }.

(** path.c:68-94 path_key_compare *)
Definition path_key_compare (k : nat) (o : operand) : bool :=
  match o with OName n => match n_own n with Some j => Nat.eqb j k | None => false end | _ => false end.
(** path.c:96-115 path_start *)
Definition path_start (cur : option (cmpop * operand)) (o : cmpop) (v : operand) : res bool :=
  match cur with
  | None => Ok true
  | Some (OpEq, _) => Ok false
  | Some (_, s) => match o with
                   | OpEq => Ok true
                   | _ => do rc <- path_ast_compare s v; Ok (rc =? -1)
                   end
  end.
(** path.c:117-133 path_stop; [value]: the operand that is not the key *)
Definition path_stop (order : nat) (cur : option operand) (v : operand) : res bool :=
  if Nat.ltb 0 order then Ok false
  else match cur with
       | None => Ok true
       | Some s => do rc <- path_ast_compare s v; Ok (0 <? rc)
       end.
(** path.c:195-233 path_value: all names of the range but the key itself must be names of outer columns *)
Definition path_value (p : pathop) (key_left : bool) : bool :=
  forallb n_outer ((if po_lin p && negb key_left then names_of (po_l p) else []) ++ po_extra p ++
                   (if po_rin p && key_left then names_of (po_r p) else [])).
(** the value of the stop condition kept so far *)
Definition stop_value (k : nat) (s : option (cmpop * operand * operand)) : option operand :=
  match s with
  | None => None
  | Some (_, l, r) => Some (if path_key_compare k l then r else l)
  end.
(** path.c:238-313 one step of path_key *)
Definition path_key_step (order k : nat) (pk : pathkey) (p : pathop) : res pathkey :=
  let o := po_op p in
  let set_start v := do b <- path_start (pk_start pk) o v; Ok (if b then mkpk (Some (o, v)) (pk_stop pk) else pk) in
  let set_stop v := do b <- path_stop order (stop_value k (pk_stop pk)) v; Ok (if b then mkpk (pk_start pk) (Some (o, po_l p, po_r p)) else pk) in
  if path_key_compare k (po_l p) then
    if path_value p true then
      match o with OpEq | OpGt | OpGe => set_start (po_r p) | OpLt | OpLe => set_stop (po_r p) end
    else Ok pk
  else if path_key_compare k (po_r p) then
    if path_value p false then
      match o with OpEq | OpLt | OpLe => set_start (po_l p) | OpGt | OpGe => set_stop (po_l p) end
    else Ok pk
  else Ok pk.
(** path.c:235-315 path_key *)
Fixpoint path_key (order k : nat) (pk : pathkey) (ops : list pathop) : res pathkey :=
  match ops with
  | [] => Ok pk
  | p :: ops' => do pk' <- path_key_step order k pk p; path_key order k pk' ops'
  end.

(** path.h:39-47 Path; [pa_start], [pa_stop]: match_start, match_stop *)
Record path := mkpath { pa_keys : list pathkey; pa_start : nat; pa_stop : nat; pa_lookup : bool }.
Definition is_some {A} (o : option A) : bool := match o with Some _ => true | None => false end.
(** path.c:325-346 the loop; [ss], [sp]: match_last_start and match_last_stop are the previous key *)
Fixpoint path_loop (order : nat) (ks : keys) (ops : list pathop) (ss sp : bool) : res (list pathkey * (nat * nat * nat)) :=
  match ks with
  | [] => Ok ([], (0%nat, 0%nat, 0%nat))
  | k :: ks' =>
      do pk <- path_key order k (mkpk None None) ops;
      let ss' := ss && is_some (pk_start pk) in
      let sp' := sp && is_some (pk_stop pk) in
      do (l, n) <- path_loop (S order) ks' ops ss' sp';
      let '(n_start, n_stop, n_eq) := n in
      let eq := match pk_start pk with Some (OpEq, _) => true | _ => false end in
      Ok (pk :: l, ((if ss' then S n_start else n_start), (if sp' then S n_stop else n_stop), (if ss' && eq then S n_eq else n_eq)))
  end.
(** path.c:317-353 path_create *)
Definition path_create (ks : keys) (ops : list pathop) : res path :=
  do (l, n) <- path_loop 0 ks ops true true;
  let '(n_start, n_stop, n_eq) := n in
  Ok (mkpath l n_start n_stop (Nat.eqb n_eq (length ks))).

(** ** path_prepare.c *)
(** index_config.h:16-26 IndexConfig *)
Record index := mkindex { x_keys : keys; x_hash : bool; x_unique : bool }.
(** path_prepare.c:21-53 path_prepare_match *)
Definition path_prepare_match (pp : path) (px : index) (np : path) (nx : index) : bool :=
  if negb (x_hash px) && negb (x_hash nx) then
    if Nat.ltb (pa_start pp) (pa_start np) then true
    else if Nat.ltb (pa_stop pp) (pa_stop np) then true else false
  else if x_hash px && x_hash nx then
    if pa_lookup pp then false else pa_lookup np
  else if x_hash px then pa_lookup pp
  else pa_lookup np.
(** path_prepare.c:79-100 *)
Fixpoint path_choose (ops : list pathop) (pp : path) (px : index) (idx : list index) (order at_ : nat) : res (path * index * nat) :=
  match idx with
  | [] => Ok (pp, px, at_)
  | x :: idx' =>
      do p <- path_create (x_keys x) ops;
      if path_prepare_match pp px p x then path_choose ops p x idx' (S order) order
      else path_choose ops pp px idx' (S order) at_
  end.
(** path_prepare.c:55-106 path_prepare_target: the path of the primary index, the path and the index to
    scan; [use]: FROM t USE INDEX (name) *)
Definition path_prepare_target (idx : list index) (use : option nat) (w : option cond) : res (path * (path * index * nat)) :=
  let ops := match w with Some c => path_ops c | None => [] end in
  match idx with
  | [] => UB
  | primary :: rest =>
      match use with
      | Some i =>
          match nth_error idx i with
          | None => UB
          | Some x =>
              do p <- path_create (x_keys x) ops;
              do q <- (if Nat.eqb i 0 then Ok p else path_create (x_keys primary) ops);
              Ok (q, (p, x, i))
          end
      | None =>
          do p <- path_create (x_keys primary) ops;
          do c <- path_choose ops p primary rest 1 0;
          Ok (p, c)
      end
  end.
End Path.
Arguments mkpk _ _ : assert.

(** ** the scan of an index *)
Section Scan.
Variable mag : Z -> Z -> Z.
Variable mem : Z -> list Z.
Variable mixed : cmpop -> dval -> dval -> bool.
Variable stale : Z.        (* [integer] of a NULL on the stack: CPUSH_NULLS sets only the type *)
Variable cols : list column.

(** a row as its bytes; the columns of a row: ctable_read of each (vm.c) *)
Definition row := list Z.
Fixpoint read_columns (r : row) (i : Z) (cs : list column) : res (list dval) :=
  match cs with
  | [] => Ok []
  | c :: cs' => do v <- row_read r c i; do l <- read_columns r (i + 1) cs'; Ok (v :: l)
  end.

(** scan.c:22-43 scan_key: the values of the keys up to the first one without a start *)
Fixpoint scan_key (l : list pathkey) : res (list dval) :=
  match l with
  | [] => Ok []
  | pk :: l' =>
      match pk_start pk with
      | None => Ok []
      | Some (_, o) => do v <- operand_value None o; do r <- scan_key l'; Ok (v :: r)
      end
  end.
(** row.c:117-147 copies [integer] of a value whatever its type is *)
Definition as_key (c : column) (v : dval) : dval :=
  match c_type c with
  | TString => v
  | _ => if c_size c =? 16 then v
         else match v with DDouble bits => DInt bits | DNull => DInt stale | _ => v end
  end.
Fixpoint as_keys (ks : keys) (vals : list dval) : list dval :=
  match ks, vals with
  | k :: ks', v :: vals' => as_key (nth k cols (mkcol TString 0 false false)) v :: as_keys ks' vals'
  | _, _ => []
  end.

(** tree_iterator.h tree_iterator_open: the first row that is not less than the key *)
Fixpoint open_tree (ks : keys) (key : row) (l : list row) : res (list row) :=
  match l with
  | [] => Ok []
  | r :: l' => do rc <- compare mag cols ks key r; if 0 <? rc then open_tree ks key l' else Ok l
  end.
(** hash_iterator.h:24-49 hash_iterator_open: the row with the key; next continues with the rows after
    it.  [l]: the rows in the order of a full scan. *)
Fixpoint open_hash (ks : keys) (key : row) (l : list row) : res (list row) :=
  match l with
  | [] => Ok []
  | r :: l' => do rc <- compare mag cols ks key r; if rc =? 0 then Ok l else open_hash ks key l'
  end.

(** scan.c:69-109 scan_on_match, :114-198 the loop of scan_table; [stop]: the condition checked for
    every row, [once]: no CTABLE_NEXT *)
Fixpoint scan_loop (stop : option (cmpop * operand * operand)) (w : option cond) (once : bool) (l : list row) : res (list row) :=
  match l with
  | [] => Ok []
  | r :: l' =>
      do vs <- read_columns r 0 cols;
      do go <- match stop with None => Ok true | Some (o, a, b) => cmp_value mixed (Some vs) o a b end;
      if go then
        do m <- match w with None => Ok true | Some c => cond_value mixed (Some vs) c end;
        do out <- (if once then Ok [] else scan_loop stop w once l');
        Ok (if m then r :: out else out)
      else Ok []
  end.
(** scan.c:114-198 scan_table and command.c:378-425 ctable_open on one partition, whose rows [l] are in
    the order of the index.  :163-187: for a hash index the positions of the jumps are never set, and
    with a stop condition an instruction at a random position is overwritten. *)
Definition scan_table (p : path) (x : index) (w : option cond) (l : list row) : res (list row) :=
  if x_hash x && Nat.ltb 0 (pa_stop p) then UB
  else
    do vals <- scan_key (pa_keys p);
    do key <- row_create_key mem cols (x_keys x) (as_keys (x_keys x) vals);
    do l' <- (if x_hash x then (if pa_lookup p then open_hash (x_keys x) key l else Ok l)
              else open_tree (x_keys x) key l);
    scan_loop (match pa_keys p with pk :: _ => pk_stop pk | [] => None end) w (pa_lookup p && x_unique x) l'.

(** ** the statement *)
(** a partition: the rows in the order of each index of the table *)
Record tpart := mktp { tp_part : part; tp_rows : list (list row) }.
Record table := mktable { t_idx : list index; t_map : mapping; t_parts : list tpart }.

Fixpoint scan_parts (p : path) (x : index) (at_ : nat) (w : option cond) (parts : list tpart) : res (list row) :=
  match parts with
  | [] => Ok []
  | tp :: parts' =>
      do a <- match nth_error (tp_rows tp) at_ with Some l => scan_table p x w l | None => UB end;
      do b <- scan_parts p x at_ w parts';
      Ok (a ++ b)
  end.
Definition same_part (p q : part) : bool := p_id p =? p_id q.
(** compiler.c:187-207, command.c:108-200: the partition of the primary key, or all of them *)
Definition query (junk : operand -> Z) (t : table) (use : option nat) (w : option cond) : res (list row) :=
  do (pp, c) <- path_prepare_target mag junk (t_idx t) use w;
  let '(p, x, at_) := c in
  if pa_lookup pp then
    do vals <- scan_key (pa_keys pp);
    do q <- row_map_keys (t_map t) cols (match t_idx t with pr :: _ => x_keys pr | [] => [] end) vals;
    match q with
    | None => UB
    | Some q => scan_parts p x at_ w (filter (fun tp => same_part (tp_part tp) q) (t_parts t))
    end
  else scan_parts p x at_ w (t_parts t).

(** the inner table of a join or the table of a subquery (CTABLE_OPEN, CTABLE_OPENL): cursor.c:164-197.
    A point lookup opens the partition the key row belongs to; a scan merges the partitions: [merged]
    are the rows of the table in the order of each index (see UnionModel.v, HashModel.v for the merge). *)
Definition scan_inner (junk : operand -> Z) (t : table) (use : option nat) (w : option cond) (merged : nat -> list row) : res (list row) :=
  do (pp, c) <- path_prepare_target mag junk (t_idx t) use w;
  let '(p, x, at_) := c in
  if pa_lookup p then
    do vals <- scan_key (pa_keys p);
    do key <- row_create_key mem cols (x_keys x) (as_keys (x_keys x) vals);
    do q <- part_mapping_map (t_map t) cols (match t_idx t with pr :: _ => x_keys pr | [] => [] end) key;
    match q with
    | None => UB
    | Some q => scan_parts p x at_ w (filter (fun tp => same_part (tp_part tp) q) (t_parts t))
    end
  else scan_table p x w (merged at_).
End Scan.
