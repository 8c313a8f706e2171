(** Model of the grouping set of vm/set/set.c and vm/set/set_hash.h (GROUP BY, DISTINCT
    aggregates) and of the aggregates of vm/set/agg.c.

    Numbers of rows and sizes are natural numbers: the 32-bit limits of row positions
    (4294967295 marks an empty slot) and of the size of the hash table are not modelled.
    [None] means that the code would probe the table without an end. *)
From Verif Require Import Base JsonModel ValueModel HashModel.

Section Set_.
(** the keys of a row; [eqb] models vm/value/compare.h:100-125 store_compare_keys(_ptr),
    [hash] the loop of set.c:150-151; [A]: the columns of a row, [a0] those of a new row *)
Context {K A : Type}.
Variable eqb : K -> K -> bool.
Variable hash : K -> Z.
Variable a0 : A.

(** set_hash.h:17-21: a slot has the hash of the keys and the position of the row;
    [None]: row == UINT32_MAX *)
Definition slot := option (Z * nat).
Record gset := mkset { srows : list (K * A); stab : list slot }.
(** set.c set_create *)
Definition set_empty : gset := mkset [] [].

(** row->hash % self->hash_size *)
Definition slot0 (h : Z) (n : nat) : nat := Z.to_nat (h mod Z.of_nat n).

(** set_hash.h:60-73 set_hash_put.  The fuel is the number of slots: a loop that visits
    all of them without a result does not end *)
Fixpoint put_loop (tab : list slot) (e : Z * nat) (pos fuel : nat) : option (list slot) :=
  match fuel with
  | O => None
  | S f =>
    match nth pos tab None with
    | None => Some (set_nth tab pos (Some e))
    | Some _ => put_loop tab e ((pos + 1) mod length tab) f
    end
  end.
Definition set_hash_put (tab : list slot) (e : Z * nat) : option (list slot) :=
  put_loop tab e (slot0 (fst e) (length tab)) (length tab).
(** set_hash.h:75-89 set_hash_resize *)
Fixpoint put_all (src : list slot) (tab : list slot) : option (list slot) :=
  match src with
  | [] => Some tab
  | None :: r => put_all r tab
  | Some e :: r => match set_hash_put tab e with None => None | Some t => put_all r t end
  end.
Definition set_hash_resize (tab : list slot) : option (list slot) :=
  put_all tab (repeat None (2 * length tab)).

(** set.c:157-169: the slot that ends the probe *)
Fixpoint find_loop (s : list (K * A)) (tab : list slot) (k : K) (h : Z) (pos fuel : nat) : option nat :=
  match fuel with
  | O => None
  | S f =>
    match nth pos tab None with
    | None => Some pos
    | Some (h', r) =>
      let next := find_loop s tab k h ((pos + 1) mod length tab) f in
      if h' =? h then
        match nth_error s r with
        | Some (k', _) => if eqb k' k then Some pos else next
        | None => next
        end
      else next
    end
  end.
(** set.c:135-185 set_upsert (and 187-237 set_upsert_ptr): position of the row, exists *)
Definition set_upsert (s : gset) (k : K) (hash_value : Z) : option (nat * bool * gset) :=
  let tab := match stab s with [] => repeat None 64 | t => t end in
  let tab' := if (length tab / 2 <=? length (srows s))%nat then set_hash_resize tab else Some tab in
  match tab' with
  | None => None
  | Some tab =>
    let h := if hash_value =? 0 then hash k else hash_value in
    match find_loop (srows s) tab k h (slot0 h (length tab)) (length tab) with
    | None => None
    | Some pos =>
      match nth pos tab None with
      | Some (_, r) => Some (r, true, mkset (srows s) tab)
      | None => Some (length (srows s), false,
                      mkset (srows s ++ [(k, a0)]) (set_nth tab pos (Some (h, length (srows s)))))
      end
    end
  end.
(** set.c set_column(set, row, i) = ... : update of the columns of a row *)
Definition set_update (s : gset) (r : nat) (f : A -> A) : gset :=
  match nth_error (srows s) r with
  | Some (k, a) => mkset (set_nth (srows s) r (k, f a)) (stab s)
  | None => s
  end.
(** vm.c:1542-1550 cset_get, once for every row of the input *)
Fixpoint upsert_list (s : gset) (ks : list K) : option (list (nat * bool) * gset) :=
  match ks with
  | [] => Some ([], s)
  | k :: ks' =>
    match set_upsert s k 0 with
    | None => None
    | Some (r, ex, s1) =>
      match upsert_list s1 ks' with
      | None => None
      | Some (l, s2) => Some ((r, ex) :: l, s2)
      end
    end
  end.
End Set_.
Arguments gset : clear implicits.

(** ** hash of keys *)
(** runtime/lib/hash.h:14-26 hash_fnv *)
Definition hash_fnv (data : list Z) : Z :=
  fold_left (fun h b => Z.lxor ((h * 16777619) mod 2 ^ 32) b) data 2166136261.
(** bytes of the value used by set_hash.h:91-135 set_hash_value; the first 8 of the 16
    bytes of a uuid ([sizeof(&value->uuid)] is the size of a pointer) *)
Definition value_bytes (v : value) : list Z :=
  match v with
  | VNull => []
  | VInt z | VBool z | VTimestamp z | VDate z => le_enc 8 (z mod 2 ^ 64)
  | VInterval m d u => le_enc 4 (m mod 2 ^ 32) ++ le_enc 4 (d mod 2 ^ 32) ++ le_enc 8 (u mod 2 ^ 64)
  | VDouble d => le_enc 8 d
  | VString s => s
  | VVector l => le_enc 4 (Z.of_nat (length l)) ++ flat_map (le_enc 4) l
  | VUuid a _ => le_enc 8 (a mod 2 ^ 64)
  end.
Definition set_hash_value (v : value) (hash : Z) : Z := Z.lxor hash (hash_fnv (value_bytes v)).
(** set.c:148-152 *)
Definition keys_hash (k : list value) : Z := fold_left (fun h v => set_hash_value v h) k 0.
