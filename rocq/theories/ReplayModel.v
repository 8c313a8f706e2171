(** Recovery of one partition from a snapshot and the write-ahead log:
    amelie/db/db/recover.c, amelie/db/part/part.c. *)
From Verif Require Import PartModel.
From Coq Require Import List ZArith Lia Bool.
Import ListNotations.
Open Scope Z_scope.

(** a partition with no rows (db/part/part.c:18-37 part_allocate) *)
Definition empty_part (n : nat) : part := mkpart (fun _ _ => None) n [] [] [] [] 0.

(** commit.c tr_commit followed by the reset of the per-transaction bookkeeping of the model *)
Definition settle (p : part) : part :=
  let q := tr_commit p in mkpart (ix q) (nsec q) [] [] [] [] (next q).

(** executing and committing transactions one after the other; the log gets one
    record (lsn, persisted operations) per transaction.  None: a transaction failed. *)
Fixpoint execute (p : part) (lsn : Z) (txs : list (list op)) : option (part * list (Z * list (cmd * row))) :=
  match txs with
  | [] => Some (p, [])
  | t :: r =>
    match run p t with
    | (p1, SOk) =>
      match execute (settle p1) (lsn + 1) r with
      | Some (q, recs) => Some (q, (lsn, wal p1) :: recs)
      | None => None
      end
    | _ => None
    end
  end.

(* part.c:57-82 part_open: the rows of the heap image are put in every index.
   part_op.c:258-283 part_apply(delete = false) *)
Definition part_apply (p : part) (r : row) : part :=
  with_ix p (fun j k => if (j <=? nsec p)%nat then set_idx (ix p) j (key_of j r) (Some r) j k else ix p j k).
Definition part_open (n : nat) (image : list row) : part :=
  fold_left part_apply image (empty_part n).

(* recover.c:52-72 recover_map + 74-115 recover_cmd + recover_next: skip a record that
   the snapshot (heap->header->lsn = [snap]) already includes, else replay and commit *)
Definition recover_next (p : part) (snap : Z) (rec : Z * list (cmd * row)) : part * status :=
  if fst rec <=? snap then (p, SOk)
  else match replay p (snd rec) with
       | (p1, SOk) => (settle p1, SOk)
       | (p1, st) => (p1, st)
       end.
Fixpoint recover (p : part) (snap : Z) (recs : list (Z * list (cmd * row))) : part * status :=
  match recs with
  | [] => (p, SOk)
  | c :: r => match recover_next p snap c with (p1, SOk) => recover p1 snap r | (p1, st) => (p1, st) end
  end.

(** [image] is the list of rows of the heap of [p], in some order: the rows of the
    primary index (db/heap/heap_iterator.h; C07) *)
Definition image_of (p : part) (image : list row) : Prop :=
  NoDup image /\ forall r, In r image <-> exists k, ix p 0%nat k = Some r.
