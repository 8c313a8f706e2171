(** CREATE INDEX and recovery when the set of indexes changes with time:
    amelie/db/service/indexate.c (with no concurrent writes; see ShadowModel for these),
    amelie/db/service/op.c, amelie/db/db/recover.c, amelie/db/part/part.c.

    The columns of a row are [rkeys]; index number i uses column i (column 0 is the
    primary key).  The key of an index that is not UNIQUE holds the primary key too
    (compiler/parser/parse_index.c:81-83); a value of the model stands for the whole key. *)
From Verif Require Import PartModel ReplayModel.
From Coq Require Import List ZArith Lia Bool.
Import ListNotations.
Open Scope Z_scope.

(* indexate.c:107-121 indexate_job: every row of the heap is put in the new index;
   None: "indexate: index unique constraint violation" *)
Fixpoint build (i : nat) (m : Z -> option row) (image : list row) : option (Z -> option row) :=
  match image with
  | [] => Some m
  | r :: rest =>
    match m (key_of i r) with
    | Some _ => None
    | None => build i (fun k => if k =? key_of i r then Some r else m k) rest
    end
  end.

(* indexate.c:85-88 (the index is empty), 107-121, 190-192 part_index_add: the index is
   added at the end of the list of indexes.  [image]: the rows of the heap, in heap order *)
Definition create_index (p : part) (image : list row) : option part :=
  match build (S (nsec p)) (fun _ => None) image with
  | None => None
  | Some m => Some (mkpart (fun j k => if Nat.eqb j (S (nsec p)) then m k else ix p j k) (S (nsec p))
                           (log p) (wal p) (freed p) (made p) (next p))
  end.

(** a record of the log, for one table with one partition: the rows of a transaction
    (CMD_REPLACE / CMD_DELETE) or CMD_DDL_CREATE_INDEX *)
Inductive rec := RRows (w : list (cmd * row)) | RIndex.

(** one committed transaction (commit.c:38-52), or one CREATE INDEX (db/service/op.c:134-187) *)
Inductive hstep : part -> rec -> part -> Prop :=
| HTx p ops p1 : run p ops = (p1, SOk) -> hstep p (RRows (wal p1)) (settle p1)
| HIndex p image p1 : image_of p image -> create_index p image = Some p1 -> hstep p RIndex p1.

(** a history: the records get consecutive lsns, the first one is [lsn] *)
Inductive history : part -> Z -> list (Z * rec) -> part -> Prop :=
| HNil p lsn : history p lsn [] p
| HCons p lsn r p1 recs q : hstep p r p1 -> history p1 (lsn + 1) recs q -> history p lsn ((lsn, r) :: recs) q.

(* recover.c:52-129: rows are skipped if the partition file includes the record
   ([snap]: heap->header->lsn), DDL is skipped if the catalog file does ([cat]:
   state_catalog()); an error ends the recovery *)
Inductive rstep (snap cat : Z) : part -> Z * rec -> part -> status -> Prop :=
| SkipRows x l w : l <= snap -> rstep snap cat x (l, RRows w) x SOk
| DoRows x l w y : snap < l -> replay x w = (y, SOk) -> rstep snap cat x (l, RRows w) (settle y) SOk
| FailRows x l w y st : snap < l -> replay x w = (y, st) -> st <> SOk -> rstep snap cat x (l, RRows w) y st
| SkipIndex x l : l <= cat -> rstep snap cat x (l, RIndex) x SOk
| DoIndex x l image y : cat < l -> image_of x image -> create_index x image = Some y -> rstep snap cat x (l, RIndex) y SOk
| FailIndex x l image : cat < l -> image_of x image -> create_index x image = None -> rstep snap cat x (l, RIndex) x SErr.

Inductive recovers (snap cat : Z) : part -> list (Z * rec) -> part -> status -> Prop :=
| RNil x : recovers snap cat x [] x SOk
| RStop x c recs y st : rstep snap cat x c y st -> st <> SOk -> recovers snap cat x (c :: recs) y st
| RCons x c recs x1 y st : rstep snap cat x c x1 SOk -> recovers snap cat x1 recs y st -> recovers snap cat x (c :: recs) y st.

(** the indexes of the catalog file: those of CREATE TABLE and those created up to [cat].
    db/catalog/table_config.h:237-246 (the indexes of a table in the catalog file), part_mgr.c:52-70 *)
Definition indexes_at (cat : Z) (recs : list (Z * rec)) : nat :=
  length (filter (fun c => match snd c with RIndex => fst c <=? cat | RRows _ => false end) recs).
