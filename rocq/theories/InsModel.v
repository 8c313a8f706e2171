(** Model of INSERT ... VALUES: the rows parsed into a set owned by the
    program, variables as references pushed on the virtual machine's stack,
    stored generated columns written back into the set, the rows sent to their
    partitions, and the row made by the partition's thread.
    /repo/amelie/compiler/parser/parse_row.c, parse_value.c, refs.h,
    compiler/compiler/compiler.c, emit_insert.c, vm/vm/vm.c, vm/vm/command.c,
    vm/value/row.c, row.h, value_data.h, value_hash.h.

    Simplifications: every column is a 64 bit INT (the store and load of the
    other types is the subject of RowModel.v); an expression of a generated
    column is built from constants, columns and binary operators that return
    NULL on NULL; the number generated for an identity column is any function
    of how many were generated before (SERIAL and RANDOM alike); the partition
    of a row is any function of its key values (value_hash_row and
    mapping->map).  Uniqueness of keys and the indexes are in PartModel.v. *)
From Verif Require Import Base.

(** vm/value/value.h:192 TYPE_REF: a value that stands for the n-th reference
    of the statement; TYPE_NULL; TYPE_INT *)
Inductive value := VNull | VInt (z : Z) | VRef (n : nat).

(** value->integer: the same member holds the integer of an INT and the order
    of a reference (value.h:190-194) *)
Definition integer (v : value) : Z :=
  match v with VNull => 0 | VInt z => z | VRef n => Z.of_nat n end.

Definition is_null (v : value) : bool :=
  match v with VNull => true | _ => false end.

(** expression of a generated column (parse_insert.c:112-158) *)
Inductive expr :=
| EConst (z : Z)
| ECol (i : nat)
| EBin (f : Z -> Z -> Z) (a b : expr).

(** column declaration: constraints not_null, as_identity, as_stored, value
    (db/row/constraints.h:23-31) *)
Record column := mkcol
  { c_notnull : bool; c_ident : bool; c_stored : option expr; c_default : option Z }.

(** one value of a row in the text of the statement *)
Inductive cell :=
| GValue (v : option Z)   (* NULL or a literal *)
| GVar (x : nat)          (* a variable or function argument *)
| GDefault.               (* DEFAULT, or a column left out of the list *)

(** a reference: the variable and ref->not_null (compiler/parser/refs.h:18-26) *)
Definition ref := (nat * bool)%type.

Definition value_of (v : option Z) : value :=
  match v with None => VNull | Some z => VInt z end.

(** parse_value, parse_value_default (parse_value.c:69-107, 261-277): each
    variable gets a new reference, because refs_add compares the token *)
Definition parse_value (c : column) (g : cell) (refs : list ref) : value * list ref :=
  match g with
  | GValue v => (value_of v, refs)
  | GVar x => (VRef (length refs), refs ++ [(x, c_notnull c)])
  | GDefault => (if c_ident c then VNull else value_of (c_default c), refs)
  end.

(** parse_value_validate (parse_value.c:279-298) *)
Definition parse_validate (c : column) (v : value) : bool :=
  negb (is_null v) || (match c_stored c with Some _ => true | None => false end)
  || negb (c_notnull c && negb (c_ident c)).

(** parse_row, parse_row_list (parse_row.c:20-112) on the cells of one row,
    one for each column *)
Fixpoint parse_row (cols : list column) (cells : list cell) (refs : list ref)
  : res (list value * list ref) :=
  match cols, cells with
  | [], [] => Ok ([], refs)
  | c :: cols', g :: cells' =>
    let '(v, refs1) := parse_value c g refs in
    if parse_validate c v then
      do (row, refs2) <- parse_row cols' cells' refs1;
      Ok (v :: row, refs2)
    else Err
  | _, _ => Err
  end.

(** parse_rows (parse_row.c:140-156): the set insert->values, which belongs to
    the program (parse_insert.c:200-203) *)
Fixpoint parse_rows (cols : list column) (rows : list (list cell)) (refs : list ref)
  : res (list (list value) * list ref) :=
  match rows with
  | [] => Ok ([], refs)
  | r :: rows' =>
    do (row, refs1) <- parse_row cols r refs;
    do (set, refs2) <- parse_rows cols rows' refs1;
    Ok (row :: set, refs2)
  end.

(** the compiled statement *)
Record prog := mkprog
  { p_cols : list column; p_keys : list nat; p_set : list (list value); p_refs : list ref }.

Definition compile (cols : list column) (keys : list nat) (rows : list (list cell)) : res prog :=
  do (set, refs) <- parse_rows cols rows [];
  Ok (mkprog cols keys set refs).

(** ** the virtual machine's stack (vm/value/stack.h); the top is at the end *)
Definition stack_at (s : list value) (n : nat) : list value := skipn (length s - n) s.
Definition stack_popn (s : list value) (n : nat) : list value := firstn (length s - n) s.

(** CPUSH_VAR for each reference (compiler.c:142-159, vm.c:517-528) *)
Fixpoint push_refs (env : nat -> option Z) (refs : list ref) (s : list value) : res (list value) :=
  match refs with
  | [] => Ok s
  | (x, notnull) :: refs' =>
    if notnull && is_null (value_of (env x)) then Err
    else push_refs env refs' (s ++ [value_of (env x)])
  end.

(** CSTORE_READ copies the value of the set, whatever its type
    (vm.c:1787-1790, value.h:234-290); the operators look at ->integer *)
Fixpoint eval (row : list value) (e : expr) : value :=
  match e with
  | EConst z => VInt z
  | ECol i => nth i row VNull
  | EBin f a b =>
    let va := eval row a in
    let vb := eval row b in
    if is_null va || is_null vb then VNull else VInt (f (integer va) (integer vb))
  end.

(** insert->generated_columns: the stored columns in column order with their
    expressions (parse_insert.c:131-155) *)
Fixpoint stored_from (i : nat) (cols : list column) : list (nat * expr) :=
  match cols with
  | [] => []
  | c :: cols' =>
    match c_stored c with
    | Some e => (i, e) :: stored_from (S i) cols'
    | None => stored_from (S i) cols'
    end
  end.
Definition stored (cols : list column) : list (nat * expr) := stored_from 0 cols.

(** emit_insert_store_generated_on_match (emit_insert.c:22-57): for each stored
    column push its order, then its expression *)
Definition push_generated (row : list value) (gs : list (nat * expr)) (s : list value) : list value :=
  s ++ flat_map (fun '(i, e) => [VInt (Z.of_nat i); eval row e]) gs.

Fixpoint set_nth (i : nat) (v : value) (row : list value) : list value :=
  match row, i with
  | [], _ => []
  | _ :: r, O => v :: r
  | x :: r, S i' => x :: set_nth i' v r
  end.

(** cupdate_store's loop (command.c:551-553): value_move leaves a NULL in the
    stack (value.h:80-86) *)
Fixpoint store_pairs (row : list value) (vals : list value) : list value * list value :=
  match vals with
  | o :: v :: vals' =>
    let '(row', rest) := store_pairs (set_nth (Z.to_nat (integer o)) v row) vals' in
    (row', o :: VNull :: rest)
  | _ => (row, vals)
  end.

(** cupdate_store (command.c:540-554): the pairs are read from the top of the
    stack and stay there *)
Definition update_store (row : list value) (s : list value) (count : nat) : list value * list value :=
  let '(row', vals) := store_pairs row (stack_at s (2 * count)) in
  (row', stack_popn s (2 * count) ++ vals).

(** the scan over the set (emit_insert.c:118-133); nothing is emitted for a
    table with no stored column *)
Fixpoint scan_generated (gs : list (nat * expr)) (set : list (list value)) (s : list value)
  : list (list value) * list value :=
  match set with
  | [] => ([], s)
  | row :: set' =>
    let '(row1, s1) := update_store row (push_generated row gs s) (length gs) in
    let '(set1, s2) := scan_generated gs set' s1 in
    (row1 :: set1, s2)
  end.

Definition insert_store (cols : list column) (set : list (list value)) (s : list value)
  : list (list value) * list value :=
  match stored cols with
  | [] => (set, s)
  | gs => scan_generated gs set s
  end.

(** ** sending the rows *)

(** self->type == TYPE_REF: self = &refs[self->integer] *)
Definition deref (refs : list value) (v : value) : value :=
  match v with VRef n => nth n refs VNull | _ => v end.

(** columns->identity: the first identity column (db/row/columns.h:59-61) *)
Fixpoint find_ident (cols : list column) : option nat :=
  match cols with
  | [] => None
  | c :: cols' => if c_ident c then Some O else option_map S (find_ident cols')
  end.

(** row_get_identity (row.h:18-46); [next] counts the numbers generated *)
Definition row_get_identity (cols : list column) (gen : nat -> Z) (refs row : list value) (next : nat)
  : Z * nat :=
  match find_ident cols with
  | None => (0, next)
  | Some i =>
    let v := deref refs (nth i row VNull) in
    if is_null v then (gen next, S next) else (integer v, next)
  end.

(** value_hash_refs (value_hash.h:48-59): what is hashed for one key column;
    the assertion on NULL is undefined behaviour here *)
Definition key_value (cols : list column) (refs row : list value) (id : Z) (k : nat) : res Z :=
  let v := deref refs (nth k row VNull) in
  let ident := match nth_error cols k with Some c => c_ident c | None => false end in
  if is_null v then (if ident then Ok id else UB) else Ok (integer v).

(** value_hash_row (value_hash.h:61-75) *)
Fixpoint key_values (cols : list column) (refs row : list value) (id : Z) (keys : list nat)
  : res (list Z) :=
  match keys with
  | [] => Ok []
  | k :: keys' =>
    do z <- key_value cols refs row id k;
    do r <- key_values cols refs row id keys';
    Ok (z :: r)
  end.

(** request of one partition: its references and the pairs (row, identity)
    (vm/executor/req.h, command.c:57-70); a row is its position in the set,
    which is what the pointer denotes *)
Record req := mkreq { q_part : nat; q_refs : list value; q_args : list (nat * Z) }.

(** dispatch_find, dispatch_add and buf_write (command.c:57-70) *)
Fixpoint req_add (p : nat) (refs : list value) (a : nat * Z) (reqs : list req) : list req :=
  match reqs with
  | [] => [mkreq p refs [a]]
  | q :: reqs' =>
    if Nat.eqb (q_part q) p then mkreq p (q_refs q) (q_args q ++ [a]) :: reqs'
    else q :: req_add p refs a reqs'
  end.

(** csend_shard's loop over the set (command.c:46-71) *)
Fixpoint send_rows (P : prog) (gen : nat -> Z) (part_of : list Z -> nat) (refs : list value)
         (set : list (list value)) (i next : nat) (reqs : list req) : res (list req * nat) :=
  match set with
  | [] => Ok (reqs, next)
  | row :: set' =>
    let '(id, next1) := row_get_identity (p_cols P) gen refs row next in
    do ks <- key_values (p_cols P) refs row id (p_keys P);
    send_rows P gen part_of refs set' (S i) next1 (req_add (part_of ks) refs (i, id) reqs)
  end.

(** ** state of a session that runs the statement any number of times (a loop,
    or a function called again), and of the partitions' threads.
    [s_set] is the program's set; [s_queue] the requests not yet executed. *)
Record st := mkst
  { s_set : list (list value); s_stack : list value; s_next : nat;
    s_queue : list req; s_out : list (nat * list (option Z)) }.

(** a session starts with the variables declared by the program at the bottom
    of the stack; what they hold does not matter here *)
Definition init (P : prog) (vars : list value) : st := mkst (p_set P) vars 0 [] [].

(** emit_send for INSERT (compiler.c:133-184) and csend_shard (command.c:24-100) *)
Definition run_insert (P : prog) (gen : nat -> Z) (part_of : list Z -> nat)
           (env : nat -> option Z) (x : st) : res st :=
  do s1 <- push_refs env (p_refs P) (s_stack x);
  let '(set, s2) := insert_store (p_cols P) (s_set x) s1 in
  let n := length (p_refs P) in
  let refs := stack_at s2 n in
  do (reqs, next) <- send_rows P gen part_of refs set 0 (s_next x) [];
  Ok (mkst set (stack_popn s2 n) next (s_queue x ++ reqs) (s_out x)).

(** value_data_encode (value_data.h:52-142) *)
Definition encode (c : column) (refs : list value) (id : Z) (v : value) : res (option Z) :=
  let v := deref refs v in
  let v := if c_ident c then VInt id else v in
  if is_null v then (if c_notnull c then Err else Ok None) else Ok (Some (integer v)).

(** row_create (row.c:19-47) *)
Fixpoint row_create (cols : list column) (refs : list value) (id : Z) (row : list value)
  : res (list (option Z)) :=
  match cols with
  | [] => Ok []
  | c :: cols' =>
    do z <- encode c refs id (hd VNull row);
    do r <- row_create cols' refs id (tl row);
    Ok (z :: r)
  end.

(** cinsert's loop (command.c:458-471): the rows handed to part_insert *)
Fixpoint create_rows (cols : list column) (set : list (list value)) (refs : list value)
         (args : list (nat * Z)) : res (list (list (option Z))) :=
  match args with
  | [] => Ok []
  | (i, id) :: args' =>
    do row <- row_create cols refs id (nth i set []);
    do r <- create_rows cols set refs args';
    Ok (row :: r)
  end.

(** the oldest request of a partition (one thread, in order) *)
Fixpoint take_req (p : nat) (queue : list req) : option (req * list req) :=
  match queue with
  | [] => None
  | q :: queue' =>
    if Nat.eqb (q_part q) p then Some (q, queue')
    else match take_req p queue' with
         | Some (r, rest) => Some (r, q :: rest)
         | None => None
         end
  end.

(** the thread of partition [p] executes its oldest request: it reads the rows
    from the set at this moment *)
Definition deliver (P : prog) (p : nat) (x : st) : res st :=
  match take_req p (s_queue x) with
  | None => Ok x
  | Some (q, rest) =>
    do rows <- create_rows (p_cols P) (s_set x) (q_refs q) (q_args q);
    Ok (mkst (s_set x) (s_stack x) (s_next x) rest
             (s_out x ++ map (fun r => (p, r)) rows))
  end.

Inductive step :=
| Run (env : nat -> option Z)   (* the session executes the statement *)
| Deliver (p : nat).            (* the thread of a partition executes a request *)

Fixpoint run_steps (P : prog) (gen : nat -> Z) (part_of : list Z -> nat)
         (steps : list step) (x : st) : res st :=
  match steps with
  | [] => Ok x
  | Run env :: steps' => do y <- run_insert P gen part_of env x; run_steps P gen part_of steps' y
  | Deliver p :: steps' => do y <- deliver P p x; run_steps P gen part_of steps' y
  end.

(** the rows inserted into a partition, in order *)
Definition inserted (p : nat) (x : st) : list (list (option Z)) :=
  map snd (filter (fun '(q, _) => Nat.eqb q p) (s_out x)).
