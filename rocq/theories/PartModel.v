(** Model of the row operations of one partition and of the transaction log:
    amelie/db/part/part_op.c, amelie/db/transaction/log.h,
    amelie/db/transaction/commit.c.

    An index is modelled by the map it implements (key -> row); that the tree and
    hash indexes implement such a map is the subject of TreeProps.v / HashProps.v.
    A row pointer is modelled by an identity [rid] which is never reused. *)
From Coq Require Import List ZArith Lia Bool.
Import ListNotations.
Open Scope Z_scope.

(** A row: address, value of the key columns of every index (0 = primary), the
    other columns.  amelie/db/row/row.h *)
Record row := mkrow { rid : Z; rkeys : list Z; rdata : Z }.
Definition key_of (i : nat) (r : row) : Z := nth i (rkeys r) 0.

(** amelie/db/index/index.h:15-40 (the indexes of a partition are a linked list:
    primary, primary->next, ...); here numbered 0, 1, ..., n *)
Definition indexes := nat -> Z -> option row.
Definition set_idx (ix : indexes) (i : nat) (k : Z) (v : option row) : indexes :=
  fun j q => if Nat.eqb j i && (q =? k) then v else ix j q.

Inductive cmd := REPLACE | DELETE.

(** log.h:24-36 LogOp + LogRow; [lidx] = 0 stands for iface == &log_if and
    lidx > 0 for iface == &log_if_secondary *)
Record logop := mklog { lcmd : cmd; lidx : nat; lrow : row; lprev : option row }.

(** status of an operation: done, error() raised, or behaviour outside of what
    the code expects (an iterator that is not on the row) *)
Inductive status := SOk | SErr | SUB.

Record part := mkpart {
  ix : indexes;              (* the indexes *)
  nsec : nat;                (* number of secondary indexes *)
  log : list logop;          (* tr->log, oldest first *)
  wal : list (cmd * row);    (* tr->log.write_log: what is persisted at commit *)
  freed : list row;          (* row_free() calls, oldest first *)
  made : list row;           (* ghost: rows created by row_create()/row_update() *)
  next : Z                   (* ghost: next unused address *)
}.

Definition with_ix (p : part) (v : indexes) : part :=
  mkpart v (nsec p) (log p) (wal p) (freed p) (made p) (next p).
Definition add_log (p : part) (e : logop) : part :=
  mkpart (ix p) (nsec p) (log p ++ [e]) (wal p) (freed p) (made p) (next p).
(* log.h:151-158 log_persist; tables that are not UNLOGGED *)
Definition persist (p : part) (c : cmd) (r : row) : part :=
  mkpart (ix p) (nsec p) (log p) (wal p ++ [(c, r)]) (freed p) (made p) (next p).
Definition row_free (p : part) (r : row) : part :=
  mkpart (ix p) (nsec p) (log p) (wal p) (freed p ++ [r]) (made p) (next p).
(* vm/value/row.c row_create, row_update: a new row at a new address *)
Definition row_create (p : part) (keys : list Z) (data : Z) : part * row :=
  let r := mkrow (next p) keys data in
  (mkpart (ix p) (nsec p) (log p) (wal p) (freed p) (made p ++ [r]) (next p + 1), r).

(* index.h:60-63 index_replace_by, with its log record: returns the previous row *)
Definition replace_by (p : part) (i : nat) (r : row) : part * option row :=
  let prev := ix p i (key_of i r) in
  (add_log (with_ix p (set_idx (ix p) i (key_of i r) (Some r))) (mklog REPLACE i r prev), prev).
(* index.h:72-75 index_delete_by, with its log record *)
Definition delete_by (p : part) (i : nat) (r : row) : part :=
  let prev := ix p i (key_of i r) in
  add_log (with_ix p (set_idx (ix p) i (key_of i r) None)) (mklog DELETE i r prev).

(* part_op.c:117-127 and 157-166 the loop over secondary indexes of part_insert and
   part_upsert: i = first index to visit, n = how many *)
Fixpoint insert_secondary (p : part) (replace : bool) (r : row) (i n : nat) : part * status :=
  match n with
  | O => (p, SOk)
  | S m =>
    let '(p1, prev) := replace_by p i r in
    match prev with
    | Some _ => if negb replace then (p1, SErr) else insert_secondary p1 replace r (S i) m
    | None => insert_secondary p1 replace r (S i) m
    end
  end.

(* part_op.c:100-135 part_insert.  [over]: limit_ensure() raises an error at the end
   (limit.h).  The identity sequence (part_sync_sequence) is modelled in SeqModel.v *)
Definition part_insert (p : part) (replace : bool) (over : bool) (r : row) : part * status :=
  let p0 := persist p REPLACE r in
  let '(p1, prev) := replace_by p0 0 r in
  match prev, replace with
  | Some _, false => (p1, SErr)
  | _, _ =>
    let '(p2, st) := insert_secondary p1 replace r 1 (nsec p1) in
    match st with
    | SOk => if over then (p2, SErr) else (p2, SOk)
    | _ => (p2, st)
    end
  end.

(* part_op.c:137-172 part_upsert: true = the key exists (the new row is released) *)
Definition part_upsert (p : part) (over : bool) (r : row) : part * status * bool :=
  match ix p 0%nat (key_of 0 r) with
  | Some _ => (row_free p r, SOk, true)
  | None =>
    let p1 := with_ix p (set_idx (ix p) 0 (key_of 0 r) (Some r)) in
    let p2 := persist (add_log p1 (mklog REPLACE 0 r None)) REPLACE r in
    let '(p3, st) := insert_secondary p2 false r 1 (nsec p2) in
    match st with
    | SOk => (p3, if over then SErr else SOk, false)
    | _ => (p3, st, false)
    end
  end.

(* part_op.c:186-197 loop over secondary indexes of part_update: the iterator opened
   on the row must be on a row with the same key, which is replaced *)
Fixpoint update_secondary (p : part) (r : row) (i n : nat) : part * status :=
  match n with
  | O => (p, SOk)
  | S m =>
    match ix p i (key_of i r) with
    | None => (p, SUB)
    | Some prev =>
      update_secondary
        (add_log (with_ix p (set_idx (ix p) i (key_of i r) (Some r))) (mklog REPLACE i r (Some prev)))
        r (S i) m
    end
  end.

(* part_op.c:174-202 part_update.  [k]: primary key of the row under the cursor *)
Definition part_update (p : part) (k : Z) (over : bool) (r : row) : part * status :=
  match ix p 0%nat k with
  | None => (p, SUB)
  | Some prev =>
    let p1 := persist (add_log (with_ix p (set_idx (ix p) 0 k (Some r))) (mklog REPLACE 0 r (Some prev))) REPLACE r in
    let '(p2, st) := update_secondary p1 r 1 (nsec p1) in
    match st with
    | SOk => (p2, if over then SErr else SOk)
    | _ => (p2, st)
    end
  end.

(* part_op.c:230-238 loop of part_delete *)
Fixpoint delete_secondary (p : part) (r : row) (i n : nat) : part :=
  match n with
  | O => p
  | S m => delete_secondary (delete_by p i r) r (S i) m
  end.

(* part_op.c:204-243 part_delete (the #if 0 block is not compiled) *)
Definition part_delete (p : part) (k : Z) (over : bool) : part * status :=
  match ix p 0%nat k with
  | None => (p, SUB)
  | Some r =>
    let p1 := persist (add_log (with_ix p (set_idx (ix p) 0 k None)) (mklog DELETE 0 r (Some r))) DELETE r in
    (delete_secondary p1 r 1 (nsec p1), if over then SErr else SOk)
  end.

(* part_op.c:245-256 part_delete_by (no limit check) *)
Definition part_delete_by (p : part) (r : row) : part * status :=
  match ix p 0%nat (key_of 0 r) with
  | None => (p, SErr)
  | Some _ => part_delete p (key_of 0 r) false
  end.

(** ** the statements of a transaction, as the VM executes them *)
Inductive op :=
| Insert (keys : list Z) (data : Z) (over : bool)   (* vm/command.c:447-473 cinsert *)
| Upsert (keys : list Z) (data : Z) (over : bool)   (* vm/command.c:476-514 cupsert, without the ON CONFLICT part *)
| Update (k : Z) (cols : list Z) (data : Z) (over : bool)  (* vm/command.c:527-538 cupdate at the row with primary key k *)
| Delete (k : Z) (over : bool).                     (* vm/command.c:518-524 cdelete at the row with primary key k *)

(* the columns of an updated row: those that are keys of an index of the table keep
   their value, the others (which an index created later may use) get the new one.
   compiler/emit_update.c:44-50 rejects an assignment of a column with column->refs > 0 *)
Definition keep_keys (n : nat) (old new : list Z) : list Z :=
  map (fun j => nth j (if (j <=? n)%nat then old else new) 0) (seq 0 (length old)).

(* UPDATE and DELETE run for the rows their cursor finds: nothing happens if there
   is no row. *)
Definition step (p : part) (o : op) : part * status :=
  match o with
  | Insert keys data over => let '(p0, r) := row_create p keys data in part_insert p0 false over r
  | Upsert keys data over =>
      let '(p0, r) := row_create p keys data in fst (part_upsert p0 over r)
  | Update k cols data over =>
      match ix p 0%nat k with
      | None => (p, SOk)
      | Some r0 => let '(p0, r) := row_create p (keep_keys (nsec p) (rkeys r0) cols) data in part_update p0 k over r
      end
  | Delete k over =>
      match ix p 0%nat k with
      | None => (p, SOk)
      | Some _ => part_delete p k over
      end
  end.

(* a transaction: its operations until the first error *)
Fixpoint run (p : part) (ops : list op) : part * status :=
  match ops with
  | [] => (p, SOk)
  | o :: r => match step p o with (p1, SOk) => run p1 r | (p1, st) => (p1, st) end
  end.

(** ** commit and abort *)
(* part_op.c:23-34 log_if_rollback *)
Definition log_if_rollback (p : part) (e : logop) : part :=
  match lprev e with
  | Some prev => with_ix p (set_idx (ix p) (lidx e) (key_of (lidx e) prev) (Some prev))
  | None => with_ix p (set_idx (ix p) (lidx e) (key_of (lidx e) (lrow e)) None)
  end.
(* part_op.c:48-58 log_if_abort, 68-72 log_if_secondary_abort *)
Definition op_abort (p : part) (e : logop) : part :=
  let p1 := log_if_rollback p e in
  match lidx e, lcmd e with
  | O, REPLACE => row_free p1 (lrow e)
  | _, _ => p1
  end.
(* part_op.c:36-46 log_if_commit, 60-66 log_if_secondary_commit *)
Definition op_commit (p : part) (e : logop) : part :=
  match lidx e, lprev e with
  | O, Some prev => row_free p prev
  | _, _ => p
  end.
Definition log_reset (p : part) : part :=
  mkpart (ix p) (nsec p) [] [] (freed p) (made p) (next p).
(* commit.c:38-52 tr_commit: log order *)
Definition tr_commit (p : part) : part := log_reset (fold_left op_commit (log p) p).
(* commit.c:54-68 tr_abort: reverse log order *)
Definition tr_abort (p : part) : part := log_reset (fold_left op_abort (rev (log p)) p).

(** ** replay of a persisted transaction (db/recover.c:72-115 recover_cmd,
    system/backend/pod.c:36-58): each row is copied into the heap of the partition,
    then part_insert(replace = true) or part_delete_by *)
Definition replay_cmd (p : part) (cr : cmd * row) : part * status :=
  match fst cr with
  | REPLACE =>
    let '(p0, r) := row_create p (rkeys (snd cr)) (rdata (snd cr)) in part_insert p0 true false r
  | DELETE => part_delete_by p (snd cr)
  end.
Fixpoint replay (p : part) (w : list (cmd * row)) : part * status :=
  match w with
  | [] => (p, SOk)
  | c :: r => match replay_cmd p c with (p1, SOk) => replay p1 r | (p1, st) => (p1, st) end
  end.
