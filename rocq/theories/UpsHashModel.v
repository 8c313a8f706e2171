(** The cursor that an insert into a hash primary key leaves for RETURNING.
    /repo/amelie/db/index/index_hash.c, hash_iterator.h.  The hash itself is
    HashModel.v. *)
From Verif Require Import Base HashModel.

(** index_hash_upsert (index_hash.c:17-26): the position found by
    hash_get_or_set, used on the current store (hash_iterator_open_at,
    hash_iterator.h:75-82) *)
Definition index_hash_upsert (row_hash : Z -> Z) (h : hash) (r : hrow) : res (hash * bool * slot) :=
  do (h', p, pos) <- hash_get_or_set row_hash h r;
  Ok (h', match p with Some _ => true | None => false end, slot_at (current h') pos).

(** n inserts, as CUPSERT does them (command.c:480-521) *)
Fixpoint index_hash_inserts (row_hash : Z -> Z) (h : hash) (l : list hrow) : res (hash * slot) :=
  match l with
  | [] => Ok (h, Empty)
  | [r] => do (h', _, s) <- index_hash_upsert row_hash h r; Ok (h', s)
  | r :: l' => do (h', _, s) <- index_hash_upsert row_hash h r; index_hash_inserts row_hash h' l'
  end.
