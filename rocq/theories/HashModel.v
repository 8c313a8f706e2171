(** Model of the hash index: amelie/db/index/hash_store.h, hash.h, hash_iterator.h,
    index_hash.c, index_hash_merge.h.

    A row is a pair (key, value); [compare(keys, a, b) == 0] is equality of the keys;
    [row_hash] (db/row/row.h) is an arbitrary function of the key.  Positions are
    natural numbers; uint64_t counters are not bounded (a store has less than 2^63
    slots). *)
From Verif Require Import Base.

Record hrow := mkhrow { hkey : Z; hval : Z }.

(** hash_store.h:16-24  a slot: NULL, HT_DELETED, or a row *)
Inductive slot := Empty | Deleted | Used (r : hrow).

Record store := mkstore { rows : list slot; count : Z }.

Definition size (s : store) : nat := length (rows s).
Definition slot_at (s : store) (p : nat) : slot := nth p (rows s) Empty.

Fixpoint set_nth {A} (l : list A) (p : nat) (v : A) : list A :=
  match l, p with
  | [], _ => []
  | _ :: r, O => v :: r
  | x :: r, S p' => x :: set_nth r p' v
  end.

Definition put (s : store) (p : nat) (v : slot) (d : Z) : store :=
  mkstore (set_nth (rows s) p v) (count s + d).

(** hash_store.h:46-50 hash_store_is_full *)
Definition store_is_full (s : store) : bool := Z.of_nat (size s) / 2 <? count s.

(** hash_store.h:52-60 hash_store_create *)
Definition store_create (n : nat) : store := mkstore (repeat Empty n) 0.

Section WithHash.
Variable row_hash : Z -> Z.

(** row_hash(key, keys) % self->size, hash_store.h:65,93,120 *)
Definition home (s : store) (k : Z) : nat := Z.to_nat (row_hash k mod Z.of_nat (size s)).

(** hash_store.h:62-88 hash_store_set: the do-while loop visits at most [size] slots.
    Result: the new store and the previous row. *)
Fixpoint set_loop (s : store) (r : hrow) (fuel pos : nat) : res (store * option hrow) :=
  match fuel with
  | O => Err
  | S f =>
    match slot_at s pos with
    | Empty | Deleted => Ok (put s pos (Used r) 1, None)
    | Used ref =>
      if hkey ref =? hkey r then Ok (put s pos (Used r) 0, Some ref)
      else set_loop s r f ((pos + 1) mod size s)
    end
  end.
Definition store_set (s : store) (r : hrow) : res (store * option hrow) :=
  set_loop s r (size s) (home s (hkey r)).

(** hash_store.h:90-115 hash_store_delete *)
Fixpoint delete_loop (s : store) (k : Z) (fuel pos : nat) : store * option hrow :=
  match fuel with
  | O => (s, None)
  | S f =>
    match slot_at s pos with
    | Empty => (s, None)
    | Deleted => delete_loop s k f ((pos + 1) mod size s)
    | Used ref =>
      if hkey ref =? k then (put s pos Deleted (-1), Some ref)
      else delete_loop s k f ((pos + 1) mod size s)
    end
  end.
Definition store_delete (s : store) (k : Z) : store * option hrow :=
  delete_loop s k (size s) (home s k).

(** hash_store.h:117-147 hash_store_get: the row (or NULL) and the position [*at] *)
Fixpoint get_loop (s : store) (k : Z) (fuel pos : nat) : res (option hrow * nat) :=
  match fuel with
  | O => Err
  | S f =>
    match slot_at s pos with
    | Empty => Ok (None, pos)
    | Deleted => get_loop s k f ((pos + 1) mod size s)
    | Used ref =>
      if hkey ref =? k then Ok (Some ref, pos)
      else get_loop s k f ((pos + 1) mod size s)
    end
  end.
Definition store_get (s : store) (k : Z) : res (option hrow * nat) :=
  get_loop s k (size s) (home s k).

(** hash.h:16-24; [prev] is present exactly when [rehashing] is true *)
Record hash := mkhash { current : store; prev : option store; rehashing_pos : nat }.

(** hash.h:46-52 hash_create *)
Definition hash_create : hash := mkhash (store_create 256) None 0.

(** hash.h:54-66 hash_rehash_start *)
Definition hash_rehash_start (h : hash) : hash :=
  mkhash (store_create (2 * size (current h))) (Some (current h)) 0.

(** hash.h:68-93 hash_rehash: moves the next row; [fuel] >= slots left to visit *)
Fixpoint rehash_loop (cur prv : store) (pos fuel : nat) : res hash :=
  match fuel with
  | O => Ok (mkhash cur None pos)
  | S f =>
    if (pos <? size prv)%nat then
      match slot_at prv pos with
      | Empty | Deleted => rehash_loop cur prv (pos + 1) f
      | Used ref =>
        do (cur', _) <- store_set cur ref;
        Ok (mkhash cur' (Some (put prv pos Empty (-1))) (pos + 1))
      end
    else Ok (mkhash cur None pos)
  end.
Definition hash_rehash (h : hash) : res hash :=
  match prev h with
  | None => Ok h
  | Some prv => rehash_loop (current h) prv (rehashing_pos h) (S (size prv))
  end.

(** hash.h:95-115 hash_set *)
Definition hash_set (h : hash) (r : hrow) : res (hash * option hrow) :=
  match prev h with
  | Some prv =>
    do (cur', p) <- store_set (current h) r;
    let '(prv', p') := match p with
                       | Some _ => (prv, p)
                       | None => store_delete prv (hkey r)
                       end in
    do h' <- hash_rehash (mkhash cur' (Some prv') (rehashing_pos h));
    Ok (h', p')
  | None =>
    do (cur', p) <- store_set (current h) r;
    let h1 := mkhash cur' None (rehashing_pos h) in
    if store_is_full cur' then do h' <- hash_rehash (hash_rehash_start h1); Ok (h', p)
    else Ok (h1, p)
  end.

(** hash.h:117-168 hash_get_or_set.  Result: the hash, the row found (the C function
    returns whether there is one) and [*pos] *)
Definition hash_get_or_set (h : hash) (r : hrow) : res (hash * option hrow * nat) :=
  match prev h with
  | Some prv =>
    do (p, at_) <- store_get (current h) (hkey r);
    match p with
    | Some _ =>
      do h' <- hash_rehash h; Ok (h', p, at_)
    | None =>
      do (q, qat) <- store_get prv (hkey r);
      match q with
      | Some ref =>
        do h' <- hash_rehash (mkhash (put (current h) at_ (Used ref) 1)
                                     (Some (put prv qat Empty (-1))) (rehashing_pos h));
        Ok (h', q, at_)
      | None =>
        do h' <- hash_rehash (mkhash (put (current h) at_ (Used r) 1) (Some prv) (rehashing_pos h));
        Ok (h', None, at_)
      end
    end
  | None =>
    do (p, at_) <- store_get (current h) (hkey r);
    let cur' := match p with Some _ => current h | None => put (current h) at_ (Used r) 1 end in
    let h1 := mkhash cur' None (rehashing_pos h) in
    if store_is_full cur' then do h' <- hash_rehash (hash_rehash_start h1); Ok (h', p, at_)
    else Ok (h1, p, at_)
  end.

(** hash.h:170-184 hash_delete *)
Definition hash_delete (h : hash) (k : Z) : res (hash * option hrow) :=
  match prev h with
  | Some prv =>
    let '(cur', p) := store_delete (current h) k in
    let '(prv', p') := match p with Some _ => (prv, p) | None => store_delete prv k end in
    do h' <- hash_rehash (mkhash cur' (Some prv') (rehashing_pos h));
    Ok (h', p')
  | None =>
    let '(cur', p) := store_delete (current h) k in
    Ok (mkhash cur' None (rehashing_pos h), p)
  end.

(** hash_iterator.h:24-49 hash_iterator_open with a key: the row, the store it is in
    ([true] = prev) and its position *)
Definition iter_open (h : hash) (k : Z) : res (option hrow * bool * nat) :=
  do (p, at_) <- store_get (current h) k;
  match p, prev h with
  | Some _, _ => Ok (p, false, at_)
  | None, None => Ok (None, false, at_)
  | None, Some prv => do (q, qat) <- store_get prv k; Ok (q, true, qat)
  end.

(** hash_iterator.h:115-123 hash_iterator_replace and 125-135 hash_iterator_delete:
    [v] is written in the slot under the iterator *)
Definition iter_write (h : hash) (in_prev : bool) (pos : nat) (v : slot) (d : Z) : hash :=
  if in_prev then
    match prev h with
    | Some prv => mkhash (current h) (Some (put prv pos v d)) (rehashing_pos h)
    | None => h
    end
  else mkhash (put (current h) pos v d) (prev h) (rehashing_pos h).

(** hash_store.h:149-164 hash_store_next, called until NULL: every row of a store in
    slot order *)
Definition store_rows (s : store) : list hrow :=
  flat_map (fun x => match x with Used r => [r] | _ => [] end) (rows s).

(** hash_iterator.h:51-70 (open for a full scan) and 93-113 (next): the rows a full
    scan visits; a table that is not being rehashed and has count = 0 is skipped *)
Definition scan (h : hash) : list hrow :=
  match prev h with
  | Some prv => store_rows (current h) ++ store_rows prv
  | None => if count (current h) =? 0 then [] else store_rows (current h)
  end.

(** ** the operations of the index, index_hash.c:17-63 *)
Inductive hop :=
| HReplaceBy (r : hrow)   (* index_hash_replace_by: INSERT, replay *)
| HUpsert (r : hrow)      (* index_hash_upsert *)
| HDeleteBy (k : Z)       (* index_hash_delete_by *)
| HFind (k : Z)           (* iterator open on a key *)
| HReplace (r : hrow)     (* iterator open on the key of r, then index_hash_replace *)
| HDelete (k : Z)         (* iterator open on k, then index_hash_delete *)
| HScan.                  (* full scan *)

Inductive hout := ORow (r : option hrow) | ORows (l : list hrow).

Definition hstep (h : hash) (o : hop) : res (hash * hout) :=
  match o with
  | HReplaceBy r => do (h', p) <- hash_set h r; Ok (h', ORow p)
  | HUpsert r => do (h', p, _) <- hash_get_or_set h r; Ok (h', ORow p)
  | HDeleteBy k => do (h', p) <- hash_delete h k; Ok (h', ORow p)
  | HFind k => do (p, _, _) <- iter_open h k; Ok (h, ORow p)
  | HReplace r =>
      do (p, ip, at_) <- iter_open h (hkey r);
      match p with
      | Some _ => Ok (iter_write h ip at_ (Used r) 0, ORow p)
      | None => Ok (h, ORow None)
      end
  | HDelete k =>
      do (p, ip, at_) <- iter_open h k;
      match p with
      | Some _ => Ok (iter_write h ip at_ Deleted (-1), ORow p)
      | None => Ok (h, ORow None)
      end
  | HScan => Ok (h, ORows (scan h))
  end.

Fixpoint hrun (h : hash) (ops : list hop) : res (hash * list hout) :=
  match ops with
  | [] => Ok (h, [])
  | o :: r => do (h1, x) <- hstep h o; do (h2, xs) <- hrun h1 r; Ok (h2, x :: xs)
  end.
End WithHash.

(** ** index_hash_merge.h: scan of several partitions.
    A hash iterator is modelled by the rows it has still to return (head = current). *)
Section Merge.
Context {A : Type}.
Record merge := mkmerge { its : list (list A); cur_it : option nat; cur_order : nat }.

(** index_hash_merge.h:31-50 index_hash_merge_open: the first partition with a row.
    103-117: current_it = NULL, current_it_order = 0 *)
Fixpoint first_nonempty (l : list (list A)) (i : nat) : option nat :=
  match l with
  | [] => None
  | [] :: r => first_nonempty r (S i)
  | _ :: _ => Some i
  end.
Definition merge_open (l : list (list A)) : merge :=
  match first_nonempty l 0 with
  | Some i => mkmerge l (Some i) i
  | None => mkmerge l None 0
  end.

(** index_hash_merge.h:59-66 index_hash_merge_at *)
Definition merge_at (m : merge) : option A :=
  match cur_it m with
  | None => None
  | Some i => hd_error (nth i (its m) [])
  end.

(** index_hash_merge.h:80-92: the search of the next partition; reading
    list[current_it_order] with current_it_order >= list_count is outside of the list *)
Definition merge_advance (l : list (list A)) (order : nat) : res merge :=
  let order' := S order in
  if (order' <? length l)%nat then Ok (mkmerge l None order')
  else match nth_error l order' with
       | None => UB
       | Some [] => UB   (* not reachable: order' >= list_count *)
       | Some _ => Ok (mkmerge l (Some order') order')
       end.

(** index_hash_merge.h:68-93 index_hash_merge_next *)
Definition merge_next (m : merge) : res merge :=
  match cur_it m with
  | None => Ok m
  | Some i =>
    let l' := set_nth (its m) i (tl (nth i (its m) [])) in
    match nth i l' [] with
    | _ :: _ => Ok (mkmerge l' (Some i) (cur_order m))
    | [] => merge_advance l' (cur_order m)
    end
  end.

(** the caller's loop: while (iterator_has) { use iterator_at; iterator_next } for
    [n] rows *)
Fixpoint merge_rows (n : nat) (m : merge) : res (list A) :=
  match n with
  | O => Ok []
  | S n' =>
    match merge_at m with
    | None => Ok []
    | Some x => do m' <- merge_next m; do l <- merge_rows n' m'; Ok (x :: l)
    end
  end.
End Merge.
