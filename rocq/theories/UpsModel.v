(** Model of INSERT ... ON CONFLICT and of INSERT ... RETURNING: the code
    emitted for the partition, and its execution over the rows that were sent.
    /repo/amelie/compiler/compiler/emit_upsert.c, emit_update.c,
    vm/vm/command.c (ctable_prepare, cupsert, cupdate), vm/vm/vm.c (cexcluded,
    cjntr), vm/value/row.c (row_create, row_update), db/part/part_op.c
    (part_upsert, part_update).

    Simplifications: every column is an INT of 8, 16, 32 or 64 bits; the
    instructions of an expression are one instruction here (that compiled
    expressions compute their value is the subject of CompModel.v), and so are
    the pushes of CUPDATE and of CSET_ADD.  The primary index of the partition
    is a list of rows with a position as iterator: a lookup finds the row of a
    key, an insert adds one (the indexes themselves are TreeModel.v and
    HashModel.v).  A secondary index is the list of its key columns; all
    indexes are unique.  Undo and the log of the transaction are in TxModel.v. *)
From Verif Require Import Base.

Definition row := list (option Z).

(** column: width in bits, NOT NULL, as_identity, refs > 0 (part of the key of
    an index) *)
Record column := mkcol { c_bits : Z; c_notnull : bool; c_ident : bool; c_refs : bool }.

(** store of an integer in a column of [bits] bits (value_data.h:81-97) *)
Definition wrap (bits z : Z) : Z := (z + 2 ^ (bits - 1)) mod 2 ^ bits - 2 ^ (bits - 1).

(** expressions: a column of the row under the cursor, or EXCLUDED.column *)
Inductive expr :=
| EConst (v : option Z)
| ECol (i : nat)
| EExcl (i : nat)
| EBin (f : Z -> Z -> Z) (a b : expr).

(** CTABLE_READ* (vm.c:1638-1680), CEXCLUDED (vm.c:679-688): the latter reads
    the values that were sent, not the row *)
Fixpoint eval (r excl : row) (e : expr) : option Z :=
  match e with
  | EConst v => v
  | ECol i => nth i r None
  | EExcl i => nth i excl None
  | EBin f a b =>
    match eval r excl a, eval r excl b with
    | Some x, Some y => Some (f x y)
    | _, _ => None
    end
  end.

(** value_is_true (compare.h:14-27) *)
Definition is_true (v : option Z) : bool := match v with Some z => 0 <? z | None => false end.

(** one row of code_arg: the values and the identity (command.c:69-70) *)
Record entry := mkentry { e_values : row; e_id : Z }.

(** value_data_encode (value_data.h:52-97); [identity] is None for a NULL
    pointer, as row_update passes it (row.c:246) *)
Definition encode (c : column) (identity : option Z) (v : option Z) : res (option Z) :=
  if c_ident c then
    match identity with
    | None => UB
    | Some id => Ok (Some (wrap (c_bits c) id))
    end
  else
    match v with
    | None => if c_notnull c then Err else Ok None
    | Some z => Ok (Some (wrap (c_bits c) z))
    end.

(** row_create (row.c:19-47) *)
Fixpoint row_create (cols : list column) (id : Z) (vals : row) : res row :=
  match cols with
  | [] => Ok []
  | c :: cols' =>
    do x <- encode c (Some id) (hd None vals);
    do r <- row_create cols' id (tl vals);
    Ok (x :: r)
  end.

(** row_update (row.c:218-275): the pairs are consumed in column order *)
Fixpoint row_update (i : nat) (cols : list column) (old : row) (pairs : list (nat * option Z)) : res row :=
  match cols with
  | [] => Ok []
  | c :: cols' =>
    match pairs with
    | (j, v) :: pairs' =>
      if Nat.eqb j i then
        do x <- encode c None v;
        do r <- row_update (S i) cols' (tl old) pairs';
        Ok (x :: r)
      else
        do r <- row_update (S i) cols' (tl old) pairs;
        Ok (hd None old :: r)
    | [] =>
      do r <- row_update (S i) cols' (tl old) [];
      Ok (hd None old :: r)
    end
  end.

(** ** the partition *)
Definition key_of (keys : list nat) (r : row) : list (option Z) := map (fun k => nth k r None) keys.

Definition oeqb (a b : option Z) : bool :=
  match a, b with
  | Some x, Some y => x =? y
  | None, None => true
  | _, _ => false
  end.
Fixpoint key_eqb (a b : list (option Z)) : bool :=
  match a, b with
  | [], [] => true
  | x :: a', y :: b' => oeqb x y && key_eqb a' b'
  | _, _ => false
  end.

(** position of the row with the key of [r] *)
Fixpoint find_pos (keys : list nat) (r : row) (rows : list row) : option nat :=
  match rows with
  | [] => None
  | x :: rows' => if key_eqb (key_of keys x) (key_of keys r) then Some O
                  else option_map S (find_pos keys r rows')
  end.

(** part_upsert (part_op.c:136-170): the row under the iterator, and whether it
    was there before *)
Definition part_upsert (keys : list nat) (sec : list (list nat)) (rows : list row) (r : row)
  : res (list row * nat * bool) :=
  match find_pos keys r rows with
  | Some p => Ok (rows, p, true)
  | None =>
    if existsb (fun ks => match find_pos ks r rows with Some _ => true | None => false end) sec then Err
    else Ok (rows ++ [r], length rows, false)
  end.

Fixpoint set_row (p : nat) (r : row) (rows : list row) : list row :=
  match rows, p with
  | [], _ => []
  | _ :: rows', O => r :: rows'
  | x :: rows', S p' => x :: set_row p' r rows'
  end.

(** ** the emitted code *)
Inductive op :=
| OPrepare                          (* CTABLE_PREPARE *)
| OJmp (a : nat)                    (* CJMP *)
| OJntr (a : nat) (e : expr)        (* expression; CJNTR *)
| OUpdate (l : list (nat * expr))   (* pushes; CUPDATE *)
| OError                            (* call of error() *)
| OReturn (l : list expr)           (* pushes; CSET_ADD *)
| OUpsert (w : nat) (r : option nat) (* CUPSERT [cursor, _where, _returning] *)
| OFree                             (* CFREE of the cursor *)
| ORet.                             (* CRET *)

(** ON CONFLICT DO NOTHING | ERROR | UPDATE SET ... [WHERE ...]; RESOLVE is
    UPDATE with the expressions of the resolved columns (parse_insert.c:68-81) *)
Inductive conflict :=
| CNothing
| CError
| CUpdate (sets : list (nat * expr)) (where_ : option expr).

(** emit_update_target (emit_update.c:32-84): one SET into the list ordered by
    column *)
Fixpoint set_insert (i : nat) (e : expr) (l : list (nat * expr)) : res (list (nat * expr)) :=
  match l with
  | [] => Ok [(i, e)]
  | (j, f) :: l' =>
    if Nat.eqb i j then Err
    else if Nat.ltb i j then Ok ((i, e) :: l)
    else do r <- set_insert i e l'; Ok ((j, f) :: r)
  end.

Fixpoint emit_sets (cols : list column) (sets acc : list (nat * expr)) : res (list (nat * expr)) :=
  match sets with
  | [] => Ok acc
  | (i, e) :: sets' =>
    match nth_error cols i with
    | None => Err
    | Some c =>
      if c_refs c then Err
      else do acc' <- set_insert i e acc; emit_sets cols sets' acc'
    end
  end.

Fixpoint set_op (i : nat) (o : op) (code : list op) : list op :=
  match code, i with
  | [], _ => []
  | _ :: r, O => o :: r
  | x :: r, S i' => x :: set_op i' o r
  end.

(** emit_upsert (emit_upsert.c:22-133), with the jumps patched as there, and
    the return emitted behind it (compiler.c) *)
Definition emit_upsert (cols : list column) (cf : conflict) (ret : list expr) : res (list op) :=
  let code := [OPrepare; OJmp 0] in
  let jmp_start := 1%nat in
  let jmp_where := length code in
  do code <-
    match cf with
    | CUpdate sets where_ =>
      do pairs <- emit_sets cols sets [];
      match where_ with
      | Some w =>
        let jmp_jntr := length code in
        let code := code ++ [OJntr 0 w; OUpdate pairs] in
        Ok (set_op jmp_jntr (OJntr (length code) w) code)
      | None => Ok (code ++ [OUpdate pairs])
      end
    | CError => Ok (code ++ [OError])
    | CNothing => Ok code
    end;
  let '(code, jmp_returning) :=
    match ret with
    | [] => (code, None)
    | _ => (code ++ [OReturn ret], Some (length code))
    end in
  let code := set_op jmp_start (OJmp (length code)) code in
  Ok (code ++ [OUpsert jmp_where jmp_returning; OFree; ORet]).

(** ** execution *)
Record st := mkst
  { s_pc : nat; s_rest : list entry; s_last : option entry;
    s_rows : list row; s_cursor : nat; s_set : list row }.

(** cupsert's loop (command.c:480-521) *)
Fixpoint cupsert (cols : list column) (keys : list nat) (sec : list (list nat))
         (w : nat) (r : option nat) (rest : list entry) (x : st) : res st :=
  match rest with
  | [] => Ok (mkst (S (s_pc x)) [] (s_last x) (s_rows x) (s_cursor x) (s_set x))
  | e :: rest' =>
    do new <- row_create cols (e_id e) (e_values e);
    do (rows, p, exists_) <- part_upsert keys sec (s_rows x) new;
    let y pc := mkst pc rest' (Some e) rows p (s_set x) in
    if (exists_ : bool) then Ok (y w)
    else match r with
         | Some j => Ok (y j)
         | None => cupsert cols keys sec w r rest' (y (s_pc x))
         end
  end.

(** the values EXCLUDED reads: the row before self->upsert *)
Definition excluded (x : st) : res row :=
  match s_last x with Some e => Ok (e_values e) | None => UB end.

(** one instruction; None is the end of the program *)
Definition step (cols : list column) (keys : list nat) (sec : list (list nat))
           (args : list entry) (code : list op) (x : st) : res (option st) :=
  let next := S (s_pc x) in
  let go pc := mkst pc (s_rest x) (s_last x) (s_rows x) (s_cursor x) (s_set x) in
  match nth_error code (s_pc x) with
  | None => UB
  | Some OPrepare => Ok (Some (mkst next args None (s_rows x) (s_cursor x) (s_set x)))
  | Some (OJmp a) => Ok (Some (go a))
  | Some (OJntr a e) =>
    do excl <- excluded x;
    match nth_error (s_rows x) (s_cursor x) with
    | None => UB
    | Some r => Ok (Some (go (if is_true (eval r excl e) then next else a)))
    end
  | Some (OUpdate l) =>
    do excl <- excluded x;
    match nth_error (s_rows x) (s_cursor x) with
    | None => UB
    | Some r =>
      do new <- row_update 0 cols r (map (fun '(i, e) => (i, eval r excl e)) l);
      Ok (Some (mkst next (s_rest x) (s_last x) (set_row (s_cursor x) new (s_rows x)) (s_cursor x) (s_set x)))
    end
  | Some OError => Err
  | Some (OReturn l) =>
    do excl <- excluded x;
    match nth_error (s_rows x) (s_cursor x) with
    | None => UB
    | Some r => Ok (Some (mkst next (s_rest x) (s_last x) (s_rows x) (s_cursor x)
                               (s_set x ++ [map (eval r excl) l])))
    end
  | Some (OUpsert w r) => do y <- cupsert cols keys sec w r (s_rest x) x; Ok (Some y)
  | Some OFree => Ok (Some (go next))
  | Some ORet => Ok None
  end.

(** [fuel] instructions; None if the program has not ended *)
Fixpoint exec (cols : list column) (keys : list nat) (sec : list (list nat))
         (args : list entry) (code : list op) (fuel : nat) (x : st) : option (res (list row * list row)) :=
  match fuel with
  | O => None
  | S n =>
    match step cols keys sec args code x with
    | Ok None => Some (Ok (s_rows x, s_set x))
    | Ok (Some y) => exec cols keys sec args code n y
    | Err => Some Err
    | UB => Some UB
    end
  end.

Definition start (rows : list row) : st := mkst 0 [] None rows 0 [].
