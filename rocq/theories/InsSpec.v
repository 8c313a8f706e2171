(** What INSERT means: each execution inserts, for each row of VALUES, the
    given values, with the variables' current values, a new number in an
    identity column that is given none, and then the stored generated columns
    computed from that row. *)
From Verif Require Import Base InsModel.

(** the value a cell stands for *)
Definition cell_value (env : nat -> option Z) (c : column) (g : cell) : option Z :=
  match g with
  | GValue v => v
  | GVar x => env x
  | GDefault => if c_ident c then None else c_default c
  end.

Fixpoint given (env : nat -> option Z) (cols : list column) (cells : list cell) : list (option Z) :=
  match cols, cells with
  | c :: cols', g :: cells' => cell_value env c g :: given env cols' cells'
  | _, _ => []
  end.

(** identity columns with no value get the next number *)
Fixpoint number (gen : nat -> Z) (cols : list column) (vals : list (option Z)) (next : nat)
  : list (option Z) * nat :=
  match cols, vals with
  | c :: cols', v :: vals' =>
    let '(v', n1) :=
      match v with
      | None => if c_ident c then (Some (gen next), S next) else (None, next)
      | Some _ => (v, next)
      end in
    let '(r, n2) := number gen cols' vals' n1 in
    (v' :: r, n2)
  | _, _ => ([], next)
  end.

(** value of an expression in a row; NULL if an operand is NULL *)
Fixpoint value_in (row : list (option Z)) (e : expr) : option Z :=
  match e with
  | EConst z => Some z
  | ECol i => nth i row None
  | EBin f a b =>
    match value_in row a, value_in row b with
    | Some x, Some y => Some (f x y)
    | _, _ => None
    end
  end.

(** each stored column takes the value of its expression in the row [src] *)
Fixpoint generate (src : list (option Z)) (cols : list column) (vals : list (option Z))
  : list (option Z) :=
  match cols, vals with
  | c :: cols', v :: vals' =>
    match c_stored c with Some e => value_in src e | None => v end :: generate src cols' vals'
  | _, _ => []
  end.

(** the row one row of VALUES inserts, and how many numbers are used so far *)
Definition new_row (gen : nat -> Z) (cols : list column) (env : nat -> option Z)
           (cells : list cell) (next : nat) : list (option Z) * nat :=
  let '(vals, n) := number gen cols (given env cols cells) next in
  (generate vals cols vals, n).

Fixpoint new_rows (gen : nat -> Z) (cols : list column) (env : nat -> option Z)
         (rows : list (list cell)) (next : nat) : list (list (option Z)) * nat :=
  match rows with
  | [] => ([], next)
  | r :: rows' =>
    let '(x, n1) := new_row gen cols env r next in
    let '(xs, n2) := new_rows gen cols env rows' n1 in
    (x :: xs, n2)
  end.

(** the executions of a history, in order *)
Fixpoint all_rows (gen : nat -> Z) (cols : list column) (rows : list (list cell))
         (steps : list step) (next : nat) : list (list (option Z)) :=
  match steps with
  | [] => []
  | Run env :: steps' =>
    let '(xs, n) := new_rows gen cols env rows next in
    xs ++ all_rows gen cols rows steps' n
  | Deliver _ :: steps' => all_rows gen cols rows steps' next
  end.

(** key of a row *)
Definition key_of (keys : list nat) (row : list (option Z)) : list Z :=
  map (fun k => match nth k row None with Some z => z | None => 0 end) keys.

(** the rows of a partition *)
Definition of_part (part_of : list Z -> nat) (keys : list nat) (p : nat)
           (rows : list (list (option Z))) : list (list (option Z)) :=
  filter (fun r => Nat.eqb (part_of (key_of keys r)) p) rows.

(** a row breaks no NOT NULL constraint *)
Fixpoint not_null_ok (cols : list column) (row : list (option Z)) : bool :=
  match cols, row with
  | c :: cols', v :: row' =>
    negb (c_notnull c && match v with None => true | Some _ => false end) && not_null_ok cols' row'
  | _, _ => true
  end.

(** ** what a table and a statement may look like *)

(** CREATE TABLE allows one identity column (parse_table.c:311-318) *)
Definition one_ident (cols : list column) : Prop :=
  (length (filter c_ident cols) <= 1)%nat.

(** key columns are NOT NULL *)
Definition keys_ok (cols : list column) (keys : list nat) : Prop :=
  forall k, In k keys -> exists c, nth_error cols k = Some c /\ c_notnull c = true.

(** columns an expression reads *)
Fixpoint reads (e : expr) : list nat :=
  match e with
  | EConst _ => []
  | ECol i => [i]
  | EBin _ a b => reads a ++ reads b
  end.

Definition is_var (g : cell) : bool := match g with GVar _ => true | _ => false end.

(** the restriction under which the code does what it should: no stored
    generated column at all; or no variable in VALUES, and generated columns
    that read only ordinary columns *)
Definition plain_generated (cols : list column) : Prop :=
  forall c e i d, In c cols -> c_stored c = Some e -> In i (reads e) ->
    nth_error cols i = Some d -> c_stored d = None /\ c_ident d = false.
Definition generated_not_ident (cols : list column) : Prop :=
  forall c e, In c cols -> c_stored c = Some e -> c_ident c = false.

Definition plain (cols : list column) (rows : list (list cell)) : Prop :=
  (forall c, In c cols -> c_stored c = None) \/
  ((forall r, In r rows -> existsb is_var r = false) /\
   plain_generated cols /\ generated_not_ident cols).

(** the variables that are given to NOT NULL columns are not NULL *)
Fixpoint vars_ok (env : nat -> option Z) (cols : list column) (cells : list cell) : Prop :=
  match cols, cells with
  | c :: cols', g :: cells' =>
    (match g with GVar x => c_notnull c = true -> env x <> None | _ => True end) /\
    vars_ok env cols' cells'
  | _, _ => True
  end.
