(** Model of identity columns: db/row/sequence.h, row_get_identity of vm/value/row.h, and the
    places that bring the sequence up to date: part_op.c part_sync_sequence. *)
From Verif Require Import Base.
Local Open Scope Z_scope.

Definition M64 : Z := 18446744073709551616.
Definition to_u64 (x : Z) : Z := x mod M64.
Definition to_i64 (x : Z) : Z := let u := x mod M64 in if u <? 9223372036854775808 then u else u - M64.

(** sequence.h:41-45 sequence_next and atomic_u64_inc: the value before, and the new state *)
Definition sequence_next (seq : Z) : Z * Z := (seq, to_u64 (seq + 1)).
(** sequence.h:59-67 sequence_sync; the argument is the int64 value of the column *)
Definition sequence_sync (seq v : Z) : Z := let next := to_u64 (to_u64 v + 1) in if seq <? next then next else seq.

(** A table with a serial identity column of 8 bytes.  [seq]: table->seq; [live]: the identity
    values of the committed rows; [disk]: those of the heap files; [log]: the records of the log
    since the files were written (insert or delete of a value); [made]: the values generated so
    far, the last first.  Transactions run one after the other; sequence_sync never runs at the
    time of sequence_next: part_apply and recovery hold the table or run before sessions *)
Record st := mkst { seq : Z; live : list Z; disk : list Z; log : list (bool * Z); made : list Z }.
(** table.h:72 table_allocate *)
Definition st_init : st := mkst 0 [] [] [] [].
Inductive event :=
| Insert              (* INSERT without a value: row.h:38-45 *)
| Insert_aborted      (* the same in a transaction that is aborted *)
| Insert_value (v : Z) (* INSERT with a value: row.h:28-36; part_insert with replace = false does not sync (part_op.c:128-130) *)
| Delete (v : Z)
| Checkpoint          (* refresh of every partition and service_gc *)
| Restart             (* part.c:57-74 part_open, then recover.c:93 part_insert with replace = true of the log *)
| Set_identity (v : Z). (* table_mgr_alter.c:117-141 *)
Definition remove (v : Z) (l : list Z) : list Z := filter (fun x => negb (x =? v)) l.
Definition sync_log (s : Z) (l : list (bool * Z)) : Z := fold_left (fun s (e : bool * Z) => if fst e then sequence_sync s (snd e) else s) l s.
Definition step (s : st) (e : event) : st :=
  match e with
  | Insert => let (v, q) := sequence_next (seq s) in mkst q (to_i64 v :: live s) (disk s) (log s ++ [(true, to_i64 v)]) (to_i64 v :: made s)
  | Insert_aborted => let (v, q) := sequence_next (seq s) in mkst q (live s) (disk s) (log s) (to_i64 v :: made s)
  | Insert_value v => mkst (seq s) (v :: live s) (disk s) (log s ++ [(true, v)]) (made s)
  | Delete v => mkst (seq s) (remove v (live s)) (disk s) (log s ++ [(false, v)]) (made s)
  | Checkpoint => mkst (seq s) (live s) (live s) [] (made s)
  | Restart => mkst (sync_log (fold_left sequence_sync (disk s) 0) (log s)) (live s) (disk s) (log s) (made s)
  | Set_identity v => mkst (to_u64 v) (live s) (disk s) (log s) (made s)
  end.
Definition run (s : st) (l : list event) : st := fold_left step l s.
