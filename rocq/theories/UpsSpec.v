(** What INSERT ... ON CONFLICT ... RETURNING means, row by row. *)
From Verif Require Import Base UpsModel.

(** the row that is proposed for insertion: the given values (the identity
    number in the identity column), as their columns hold them; an error if a
    NOT NULL column has none *)
Definition cell (c : column) (id : Z) (v : option Z) : option Z :=
  if c_ident c then Some (wrap (c_bits c) id) else option_map (wrap (c_bits c)) v.
Definition allowed (c : column) (v : option Z) : bool :=
  negb (c_notnull c) || match v with Some _ => true | None => false end.

Fixpoint build (f : nat -> column -> option Z) (i : nat) (cols : list column) : res row :=
  match cols with
  | [] => Ok []
  | c :: cols' =>
    if allowed c (f i c) || c_ident c then
      do r <- build f (S i) cols'; Ok (f i c :: r)
    else Err
  end.

Definition proposed (cols : list column) (e : entry) : res row :=
  build (fun i c => cell c (e_id e) (nth i (e_values e) None)) 0 cols.

(** the row with the same key *)
Definition same_key (keys : list nat) (a b : row) : bool := key_eqb (key_of keys a) (key_of keys b).

(** UPDATE SET: all expressions are evaluated on the old row and on the
    excluded one; the other columns keep their value *)
Definition set_for (sets : list (nat * expr)) (i : nat) : option expr :=
  option_map snd (find (fun '(j, _) => Nat.eqb j i) sets).

Fixpoint assign (sets : list (nat * expr)) (old excl : row) (i : nat) (cols : list column) : res row :=
  match cols with
  | [] => Ok []
  | c :: cols' =>
    match set_for sets i with
    | None => do r <- assign sets old excl (S i) cols'; Ok (nth i old None :: r)
    | Some e =>
      let v := option_map (wrap (c_bits c)) (eval old excl e) in
      if allowed c v then do r <- assign sets old excl (S i) cols'; Ok (v :: r) else Err
    end
  end.

(** the row that stays for a key that is present *)
Definition resolve (cols : list column) (cf : conflict) (old excl : row) : res row :=
  match cf with
  | CNothing => Ok old
  | CError => Err
  | CUpdate sets None => assign sets old excl 0 cols
  | CUpdate sets (Some w) => if is_true (eval old excl w) then assign sets old excl 0 cols else Ok old
  end.

(** one given row: the table after it, and the row its key has then.
    [excl e new] is what EXCLUDED means. *)
Definition put_row (excl : entry -> row -> row) (cols : list column) (keys : list nat) (sec : list (list nat))
           (cf : conflict) (rows : list row) (e : entry) : res (list row * row) :=
  do new <- proposed cols e;
  match find (same_key keys new) rows with
  | Some old =>
    do r <- resolve cols cf old (excl e new);
    Ok (map (fun x => if same_key keys new x then r else x) rows, r)
  | None =>
    if existsb (fun ks => existsb (same_key ks new) rows) sec then Err
    else Ok (rows ++ [new], new)
  end.

(** all given rows, in order; RETURNING is evaluated on the row the key has *)
Fixpoint put_rows (excl : entry -> row -> row) (cols : list column) (keys : list nat) (sec : list (list nat))
         (cf : conflict) (ret : list expr) (rows : list row) (es : list entry) : res (list row * list row) :=
  match es with
  | [] => Ok (rows, [])
  | e :: es' =>
    do new <- proposed cols e;
    do (rows1, r) <- put_row excl cols keys sec cf rows e;
    do (rows2, out) <- put_rows excl cols keys sec cf ret rows1 es';
    Ok (rows2, match ret with [] => [] | _ => [map (eval r (excl e new)) ret] end ++ out)
  end.

(** EXCLUDED is the row proposed for insertion *)
Definition upsert (cols : list column) (keys : list nat) (sec : list (list nat))
           (cf : conflict) (ret : list expr) (rows : list row) (es : list entry) : res (list row * list row) :=
  put_rows (fun _ new => new) cols keys sec cf ret rows es.

(** columns of EXCLUDED an expression reads *)
Fixpoint excl_reads (e : expr) : list nat :=
  match e with
  | EConst _ => []
  | ECol _ => []
  | EExcl i => [i]
  | EBin _ a b => excl_reads a ++ excl_reads b
  end.
Definition conflict_reads (cf : conflict) : list nat :=
  match cf with
  | CUpdate sets w =>
    flat_map (fun '(_, e) => excl_reads e) sets ++ match w with Some e => excl_reads e | None => [] end
  | _ => []
  end.

(** the statement reads from EXCLUDED only what the proposed row holds *)
Definition excluded_ok (cols : list column) (cf : conflict) (ret : list expr) (es : list entry) : Prop :=
  forall e new i, In e es -> proposed cols e = Ok new ->
    In i (conflict_reads cf ++ flat_map excl_reads ret) ->
    nth i (e_values e) None = nth i new None.

(** CREATE TABLE: an identity column is a key (parse_table.c:335-349), and key
    columns have refs *)
Definition idents_are_keys (cols : list column) : Prop :=
  forall c, In c cols -> c_ident c = true -> c_refs c = true.
Definition keys_have_refs (cols : list column) (keys : list nat) : Prop :=
  forall k c, In k keys -> nth_error cols k = Some c -> c_refs c = true.
Definition wf_rows (cols : list column) (rows : list row) : Prop :=
  Forall (fun r : row => length r = length cols) rows.

(** a table: rows of the right width, and one row for a key *)
Definition table_ok (cols : list column) (keys : list nat) (rows : list row) : Prop :=
  wf_rows cols rows /\ NoDup (map (key_of keys) rows).

(** a SET list: existing columns that are in no key, each once *)
Definition sets_ok (cols : list column) (sets : list (nat * expr)) : Prop :=
  NoDup (map fst sets) /\
  forall i e, In (i, e) sets -> exists c, nth_error cols i = Some c /\ c_refs c = false.
Definition cf_ok (cols : list column) (cf : conflict) : Prop :=
  match cf with CUpdate sets _ => sets_ok cols sets | _ => True end.
