(** Specification of the log: the committed transactions in their order.

    The k-th committed transaction has the lsn k.  The log is correct if what is read from
    its files is the record of each transaction. *)
From Verif Require Import Base WalModel JsonSpec.
Local Open Scope nat_scope.

(** the operations of a transaction, grouped by its partitions *)
Definition txn := list (list wop).
(** a stored row: its size is in its header (row.h) *)
Definition row_ok (row : list Z) : Prop := bytes_ok row = true /\ 4 <= length row /\ row_size row = Ok (Z.of_nat (length row)).
(** a row operation of a table, or a schema change with its arguments as a JSON value *)
Definition op_ok (o : wop) : Prop :=
  match o with
  | WRow cmd id row => (cmd = CMD_REPLACE \/ cmd = CMD_DELETE) /\ length id = 16 /\ bytes_ok id = true /\ row_ok row
  | WDdl cmd op => (cmd = CMD_DDL \/ cmd = CMD_DDL_CREATE_INDEX) /\ bytes_ok op = true /\ op <> [] /\ exists v, json_wf v = true /\ Enc v op
  end.
(** a transaction that has something to write and whose record is smaller than 4 GiB *)
Definition txn_ok (wal_crc : bool) (t : txn) : Prop :=
  Forall (Forall op_ok) t /\ concat t <> [] /\ (Z.of_nat (length (record_of wal_crc 0 t)) < 2 ^ 32)%Z.

(** the records of transactions with the lsns [k + 1], [k + 2], ... *)
Fixpoint records (wal_crc : bool) (k : nat) (ts : list txn) : list (list Z) :=
  match ts with
  | [] => []
  | t :: ts' => record_of wal_crc (Z.of_nat (S k)) t :: records wal_crc (S k) ts'
  end.

(** what can happen to a log *)
Inductive wal_event :=
| EvWrite (ts : list txn) (* a batch of transactions is committed *)
| EvFail (ts : list txn) (k : nat) (* the write of a batch fails after [k] bytes *)
| EvRotate
| EvGc (slots : list Z) (min : Z)
| EvRestart (p : Z). (* clean restart; [p] is the lsn that the catalog and the partitions have *)
Section Run.
Variable wal_crc : bool.
Definition wal_step (w : wal) (e : wal_event) : res wal :=
  match e with
  | EvWrite ts => Ok (wal_write wal_crc w (map (make_write wal_crc) ts))
  | EvFail ts k => Ok (wal_write_failed wal_crc w (map (make_write wal_crc) ts) k)
  | EvRotate => Ok (wal_rotate w)
  | EvGc slots min => Ok (wal_gc w slots min)
  | EvRestart p => wal_restart wal_crc w p
  end.
(** files stay below 4 GiB (their offsets are 32 bit numbers) and lsns below 2^64 *)
Definition fits (w : wal) : Prop :=
  (w_lsn w < 2 ^ 64)%Z /\ Forall (fun '(_, f) => (Z.of_nat (length f) + 24 < 2 ^ 32)%Z) (w_files w).
Definition event_ok (w : wal) (e : wal_event) : Prop :=
  match e with
  | EvWrite ts => Forall (txn_ok wal_crc) ts
  | EvRestart p => (0 <= p <= w_lsn w)%Z /\ (total_bytes (w_files w) = 0 -> p = w_lsn w)
  | _ => True
  end.
(** the transactions that are committed by an event *)
Definition committed (e : wal_event) : list txn := match e with EvWrite ts => ts | _ => [] end.
(** a history of a new log: its state and the transactions that were committed *)
Inductive run : wal -> list txn -> Prop :=
| run_new : run (mkwal (wal_open []) 0) []
| run_step w ts e w' : run w ts -> event_ok w e -> wal_step w e = Ok w' -> fits w' -> run w' (ts ++ committed e).
End Run.

(** ** what is read back *)
(** the lsn and the operations of every record *)
Fixpoint decode (wal_crc : bool) (recs : list (list Z)) : res (list (Z * list wop)) :=
  match recs with
  | [] => Ok []
  | r :: recs' =>
    do h <- read_header r;
    do ops <- replay_all wal_crc r;
    do rest <- decode wal_crc recs';
    Ok ((h_lsn h, ops) :: rest)
  end.
(** the operations that a restart replays *)
Definition recover_ops (wal_crc : bool) (fs : wal_files) : res (list (Z * list wop)) :=
  do recs <- recover_wal fs wal_crc; decode wal_crc recs.
(** the operations that a reader gets that opens the log at [lsn] *)
Definition read_ops (wal_crc : bool) (fs : wal_files) (lsn : Z) : res (list (Z * list wop)) :=
  do recs <- wal_read_from fs lsn wal_crc; decode wal_crc recs.
(** the committed transactions with their lsns: [k + 1], [k + 2], ... *)
Fixpoint numbered (k : nat) (ts : list txn) : list (Z * list wop) :=
  match ts with
  | [] => []
  | t :: ts' => (Z.of_nat (S k), concat t) :: numbered (S k) ts'
  end.
Definition log_of (ts : list txn) : list (Z * list wop) := numbered 0 ts.
Definition from_lsn (lsn : Z) (l : list (Z * list wop)) : list (Z * list wop) := filter (fun '(n, _) => (lsn <=? n)%Z) l.
Definition upto_lsn (lsn : Z) (l : list (Z * list wop)) : list (Z * list wop) := filter (fun '(n, _) => (n <=? lsn)%Z) l.
(** the records of a batch that are complete in its first [k] bytes *)
Fixpoint complete (k : nat) (recs : list (list Z)) : nat :=
  match recs with
  | [] => 0
  | r :: recs' => if length r <=? k then S (complete (k - length r) recs') else 0
  end.
Definition complete_txns (wal_crc : bool) (lsn : nat) (k : nat) (ts : list txn) : list txn := firstn (complete k (records wal_crc lsn ts)) ts.
