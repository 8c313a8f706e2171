(** Model of the open addressing hash table of the runtime: runtime/lib/hash_table.h, as it is
    used by server/auth/auth_cache.c, vm/func/function_mgr.c and runtime/lib/timezone_mgr.c. *)
From Verif Require Import Base.
Local Open Scope nat_scope.

(** hash_table.h:19-30.  A node is an address; [h_hash] and [h_pos] are its two fields.
    [h_idx] is the array of pointers of the buffer, NULL is [None]; its length is [size] *)
Record ht := mkht { h_idx : list (option nat); h_count : Z; h_hash : nat -> Z; h_pos : nat -> nat }.
Definition h_size (t : ht) : nat := length (h_idx t).
(** an element of the index array; out of bounds is [None], every use is within bounds *)
Definition slot (idx : list (option nat)) (p : nat) : option nat := nth p idx None.
Fixpoint put (idx : list (option nat)) (p : nat) (v : option nat) : list (option nat) :=
  match idx, p with
  | [], _ => []
  | _ :: r, O => v :: r
  | x :: r, S p' => x :: put r p' v
  end.
Definition upd {A} (f : nat -> A) (n : nat) (v : A) : nat -> A := fun x => if (x =? n) then v else f x.

(** hash_table.h:54-63 hashtable_create on a table that was initialized (lines 39-45) *)
Definition ht_create (size : nat) (hash : nat -> Z) (pos : nat -> nat) : ht := mkht (repeat None size) 0 hash pos.

(** hash_table.h:74, 105: hash % self->size *)
Definition home (size : nat) (hash : Z) : nat := Z.to_nat (hash mod Z.of_nat size).

(** hash_table.h:76-87: the loop of hashtable_set.  [fuel] is the number of slots: if it runs out
    then every slot was seen and the loop of the code never ends *)
Fixpoint free_slot (fuel : nat) (idx : list (option nat)) (pos : nat) : option nat :=
  match fuel with
  | O => None
  | S f => match slot idx pos with
           | None => Some pos
           | Some _ => free_slot f idx ((pos + 1) mod length idx)
           end
  end.
(** hash_table.h:71-88 hashtable_set; [None] is a loop that never ends *)
Definition ht_set (t : ht) (n : nat) : option ht :=
  match free_slot (h_size t) (h_idx t) (home (h_size t) (h_hash t n)) with
  | None => None
  | Some p => Some (mkht (put (h_idx t) p (Some n)) (h_count t + 1) (h_hash t) (upd (h_pos t) n p))
  end.
(** hash_table.h:90-97 hashtable_delete; [None] is the failed assertion *)
Definition ht_delete (t : ht) (n : nat) : option ht :=
  match slot (h_idx t) (h_pos t n) with
  | Some m => if (m =? n) then Some (mkht (put (h_idx t) (h_pos t n) None) (h_count t - 1) (h_hash t) (h_pos t)) else None
  | None => None
  end.
(** hash_table.h:107-122: the loop of hashtable_get; the outer [None] is a loop that never ends *)
Fixpoint find_slot (fuel : nat) (idx : list (option nat)) (hashes : nat -> Z) (hash : Z) (cmp : nat -> bool) (pos : nat)
  : option (option nat) :=
  match fuel with
  | O => None
  | S f => match slot idx pos with
           | None => Some None
           | Some c => if (hashes c =? hash)%Z && cmp c then Some (Some c)
                       else find_slot f idx hashes hash cmp ((pos + 1) mod length idx)
           end
  end.
Definition ht_get (t : ht) (hash : Z) (cmp : nat -> bool) : option (option nat) :=
  find_slot (h_size t) (h_idx t) (h_hash t) hash cmp (home (h_size t) hash).
(** hash_table.h:125-129 hashtable_is_full *)
Definition ht_full (t : ht) : bool := (h_count t >? Z.of_nat (h_size t) / 2)%Z.
(** hash_table.h:141-148: every node of the old array, in the order of the array *)
Fixpoint refill (t : ht) (old : list (option nat)) : option ht :=
  match old with
  | [] => Some t
  | None :: r => refill t r
  | Some n :: r => match ht_set t n with None => None | Some t' => refill t' r end
  end.
(** hash_table.h:131-152 hashtable_reserve *)
Definition ht_reserve (t : ht) : option ht :=
  if negb (ht_full t) then Some t
  else refill (ht_create (h_size t * 2) (h_hash t) (h_pos t)) (h_idx t).

(** auth_cache.c:62-75, function_mgr.c:44-58, timezone_mgr.c:71-91: a node is initialized with its
    hash, the table is reserved, the node is added.  (function_mgr.c reserves before it sets the
    hash of the new node: the new node is not in the table then, so this is the same.) *)
Definition ht_add (t : ht) (n : nat) (hash : Z) : option ht :=
  match ht_reserve (mkht (h_idx t) (h_count t) (upd (h_hash t) n hash) (upd (h_pos t) n 0)) with
  | None => None
  | Some t' => ht_set t' n
  end.

(** A history of the table *)
Inductive ht_op := Add (n : nat) (hash : Z) | Del (n : nat).
Definition ht_step (t : ht) (o : ht_op) : option ht :=
  match o with Add n h => ht_add t n h | Del n => ht_delete t n end.
Fixpoint ht_run (t : ht) (ops : list ht_op) : option ht :=
  match ops with
  | [] => Some t
  | o :: r => match ht_step t o with None => None | Some t' => ht_run t' r end
  end.
