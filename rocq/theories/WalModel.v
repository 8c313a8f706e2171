(** Model of the write-ahead log: db/transaction/record.h, write.h, write_log.h, db/wal/*,
    runtime/lib/id_mgr.h and the replay loop of db/db/recover.c over bytes.

    A file is the list of its bytes.  Reading outside of a buffer is [UB]; [error()] is [Err]. *)
From Verif Require Import Base CrcModel JsonModel.
Local Open Scope Z_scope.

Definition u32 (z : Z) : Z := z mod 2 ^ 32.
Definition crc : Z -> list Z -> Z := crc32_sse. (* runtime/runtime/runtime.c:23 *)

(** ** record.h *)
(** record.h:27-34 struct Record, packed, 24 bytes *)
Record header := mkheader { h_crc : Z; h_lsn : Z; h_size : Z; h_count : Z; h_ops : Z }.
Definition header_body (h : header) : list Z :=
  le_enc 8 (h_lsn h) ++ le_enc 4 (h_size h) ++ le_enc 4 (h_count h) ++ le_enc 4 (h_ops h).
Definition header_bytes (h : header) : list Z := le_enc 4 (h_crc h) ++ header_body h.
(** record.h:36-42 struct RecordCmd, packed, 25 bytes; the id is 16 bytes *)
Record rcmd := mkrcmd { c_cmd : Z; c_size : Z; c_crc : Z; c_id : list Z }.
Definition rcmd_bytes (c : rcmd) : list Z := [c_cmd c] ++ le_enc 4 (c_size c) ++ le_enc 4 (c_crc c) ++ c_id c.
(** record.h:17-25 *)
Definition CMD_REPLACE := 0.
Definition CMD_DELETE := 1.
Definition CMD_DDL := 2.
Definition CMD_DDL_CREATE_INDEX := 3.

(** [n] bytes of a buffer from an offset *)
Definition slice (l : list Z) (off n : nat) : res (list Z) :=
  if (off + n <=? length l)%nat then Ok (firstn n (skipn off l)) else UB.
Definition get_u (l : list Z) (off n : nat) : res Z := do b <- slice l off n; Ok (le_dec b).
(** the fields of a Record in memory *)
Definition read_header (l : list Z) : res header :=
  do c <- get_u l 0 4; do lsn <- get_u l 4 8; do size <- get_u l 12 4; do count <- get_u l 16 4; do ops <- get_u l 20 4;
  Ok (mkheader c lsn size count ops).
Definition read_rcmd (l : list Z) (off : nat) : res rcmd :=
  do c <- get_u l off 1; do size <- get_u l (off + 1) 4; do k <- get_u l (off + 5) 4; do id <- slice l (off + 9) 16;
  Ok (mkrcmd c size k id).

(** record.h:70-77 record_validate on the buffer of the record *)
Definition record_validate (l : list Z) : res bool :=
  do h <- read_header l;
  do cmds <- slice l 24 (Z.to_nat (h_count h * 25));
  do body <- slice l 4 20;
  Ok (crc (crc 0 cmds) body =? h_crc h).
(** record.h:79-84 record_validate_cmd *)
Definition record_validate_cmd (c : rcmd) (l : list Z) (pos : nat) : res bool :=
  do d <- slice l pos (Z.to_nat (c_size c)); Ok (crc 0 d =? c_crc c).

(** ** write_log.h *)
Record write_log := mklog { l_meta : list rcmd; l_iov : list (list Z) }.
Definition log_empty : write_log := mklog [] [].
Definition set_last {A} (l : list A) (f : A -> A) : list A :=
  match rev l with [] => [] | x :: r => rev r ++ [f x] end.
Definition last_opt {A} (l : list A) : option A := match rev l with [] => None | x :: _ => Some x end.
Fixpoint zlist_eqb (a b : list Z) : bool :=
  match a, b with
  | [], [] => true
  | x :: a', y :: b' => (x =? y) && zlist_eqb a' b'
  | _, _ => false
  end.
Section Write.
Variable wal_crc : bool.
(** write_log.h:52-79 write_log_add: the row is [row_size(row)] bytes *)
Definition write_log_add (w : write_log) (cmd : Z) (id : list Z) (row : list Z) : write_log :=
  let reuse := match last_opt (l_meta w) with
               | Some c => (c_cmd c =? cmd) && zlist_eqb (c_id c) id
               | None => false
               end in
  let meta := if reuse then l_meta w else l_meta w ++ [mkrcmd cmd 0 0 id] in
  mklog (set_last meta (fun c => mkrcmd (c_cmd c) (u32 (c_size c + Z.of_nat (length row)))
                                        (if wal_crc then crc (c_crc c) row else c_crc c) (c_id c)))
        (l_iov w ++ [row]).
(** write_log.h:81-97 write_log_add_op: [op] is [json_sizeof(op)] bytes *)
Definition write_log_add_op (w : write_log) (cmd : Z) (op : list Z) : write_log :=
  mklog (l_meta w ++ [mkrcmd cmd (u32 (Z.of_nat (length op))) (if wal_crc then crc 0 op else 0) (repeat 0 16)])
        (l_iov w ++ [op]).
(** ** write.h *)
Record write := mkwrite { w_header : header; w_metas : list (list rcmd); w_logs : list (list (list Z)) }.
(** write.h:51-61 write_begin *)
Definition write_begin : write := mkwrite (mkheader 0 0 24 0 0) [] [].
Definition meta_bytes (m : list rcmd) : list Z := flat_map rcmd_bytes m.
(** write.h:75-94 write_add *)
Definition write_add (w : write) (l : write_log) : write :=
  let h := w_header w in
  let m := meta_bytes (l_meta l) in
  mkwrite (mkheader (if wal_crc then crc (h_crc h) m else h_crc h) (h_lsn h)
             (u32 (h_size h + Z.of_nat (length m) + Z.of_nat (length (concat (l_iov l)))))
             (u32 (h_count h + Z.of_nat (length (l_meta l))))
             (u32 (h_ops h + Z.of_nat (length (l_iov l)))))
          (w_metas w ++ [l_meta l]) (w_logs w ++ [l_iov l]).
(** write.h:63-73 write_end *)
Definition write_end (w : write) (lsn : Z) : write :=
  let h := w_header w in
  let h1 := mkheader (h_crc h) (lsn mod 2 ^ 64) (h_size h) (h_count h) (h_ops h) in
  mkwrite (mkheader (if wal_crc then crc (h_crc h) (header_body h1) else h_crc h)
             (h_lsn h1) (h_size h1) (h_count h1) (h_ops h1)) (w_metas w) (w_logs w).
(** wal.c:322-330: [header][commands][rows or ops] *)
Definition write_bytes (w : write) : list Z :=
  header_bytes (w_header w) ++ flat_map meta_bytes (w_metas w) ++ flat_map (@concat Z) (w_logs w).
(** wal.c:304-334 wal_write_list: one record per write, the lsn after the last one *)
Fixpoint wal_write_list (lsn : Z) (ws : list write) : list Z * Z :=
  match ws with
  | [] => ([], lsn)
  | w :: ws' =>
    let '(rest, last) := wal_write_list (lsn + 1) ws' in
    (write_bytes (write_end w (lsn + 1)) ++ rest, last)
  end.
End Write.

(** the operations of a transaction *)
Inductive wop := WRow (cmd : Z) (id : list Z) (row : list Z) | WDdl (cmd : Z) (op : list Z).
(** log.h:148-155 log_persist, 179-184 log_persist_relation: every operation of a transaction
    on a partition is added to its write log as it is executed *)
Definition add_op (w : bool) (l : write_log) (o : wop) : write_log :=
  match o with WRow cmd id row => write_log_add w l cmd id row | WDdl cmd op => write_log_add_op w l cmd op end.
Definition make_log (w : bool) (ops : list wop) : write_log := fold_left (add_op w) ops log_empty.
(** batch.h:107-138, session.c:229-231: one write per transaction; a write log per partition *)
Definition make_write (w : bool) (logs : list (list wop)) : write :=
  fold_left (fun wr ops => write_add w wr (make_log w ops)) logs write_begin.
(** the record of one write with this lsn *)
Definition record_of (w : bool) (lsn : Z) (logs : list (list wop)) : list Z := write_bytes (write_end w (make_write w logs) lsn).

(** ** reading *)
(** runtime/os/vfs.c:142-157 vfs_pread and file.h:237-252: all bytes, or an error.  A read
    of no bytes is an error as well: read() returns 0 *)
Definition file_pread (f : list Z) (off n : nat) : res (list Z) :=
  if (n =? 0)%nat then Err
  else if (off + n <=? length f)%nat then Ok (firstn n (skipn off f)) else Err.
(** wal_file.h:81-85 wal_file_eof: uint32_t arithmetic; [size] is the known size *)
Definition wal_file_eof (fsize off size : Z) : bool := fsize <? u32 (u32 off + size).
(** wal_file.h:87-112 wal_file_pread: None is [false]; the result is the whole record *)
Definition wal_file_pread (f : list Z) (fsize : nat) (off : nat) : res (option (list Z)) :=
  if wal_file_eof (Z.of_nat fsize) (Z.of_nat off) 24 then Ok None
  else
    do h <- file_pread f off 24;
    do size <- get_u h 12 4;
    if wal_file_eof (Z.of_nat fsize) (Z.of_nat off) size then Ok None
    else
      do body <- file_pread f (off + 24) (Z.to_nat (u32 (size - 24)));
      Ok (Some (h ++ body)).

(** row.h:41-49 row_size of the row at the start of the buffer *)
Definition row_size (l : list Z) : res Z :=
  do b <- get_u l 0 1;
  if b mod 4 =? 0 then get_u l 3 1
  else if b mod 4 =? 1 then get_u l 3 2
  else get_u l 3 4.

(** recover.c:88-95, 107-113: the rows of a command from [pos] to [end].  A row of size 0
    is an endless loop; [fuel] is the number of bytes *)
Fixpoint read_rows (fuel : nat) (l : list Z) (pos stop : nat) : res (list (list Z) * nat) :=
  if (stop <=? pos)%nat then Ok ([], pos)
  else
    match fuel with
    | O => UB
    | S f =>
      do sz <- row_size (skipn pos l);
      if sz =? 0 then UB
      else
        do row <- slice l pos (Z.to_nat sz);
        do (rows, pos') <- read_rows f l (pos + Z.to_nat sz) stop;
        Ok (row :: rows, pos')
    end.
(** record.h:56-62 record_cmd_skip: only the sizes are read *)
Fixpoint cmd_skip (fuel : nat) (l : list Z) (pos stop : nat) : res nat :=
  if (stop <=? pos)%nat then Ok pos
  else
    match fuel with
    | O => UB
    | S f =>
      do sz <- row_size (skipn pos l);
      if sz =? 0 then UB else cmd_skip f l (pos + Z.to_nat sz) stop
    end.
(** recover.c:74-158 recover_next_record as the list of operations that it replays.
    [skip c rows] tells if a command is not replayed: the partition of its first row already
    has this lsn, or the catalog has it *)
Section Replay.
Variable skip : rcmd -> list Z -> bool.
Definition replay_cmd (l : list Z) (c : rcmd) (pos : nat) : res (list wop * nat) :=
  let stop := (pos + Z.to_nat (c_size c))%nat in
  if (c_cmd c =? CMD_REPLACE) || (c_cmd c =? CMD_DELETE) then
    if skip c (skipn pos l) then do pos' <- cmd_skip (length l) l pos stop; Ok ([], pos')
    else
      do (rows, pos') <- read_rows (length l) l pos stop;
      Ok (map (WRow (c_cmd c) (c_id c)) rows, pos')
  else if (c_cmd c =? CMD_DDL) || (c_cmd c =? CMD_DDL_CREATE_INDEX) then
    if skip c (skipn pos l) then do pos' <- cmd_skip (length l) l pos stop; Ok ([], pos')
    else
      do rest <- json_skip (skipn pos l);
      let n := (length l - pos - length rest)%nat in
      do op <- slice l pos n;
      Ok ([WDdl (c_cmd c) op], (pos + n)%nat)
  else Err.
Fixpoint replay_cmds (wal_crc : bool) (l : list Z) (n off pos : nat) : res (list wop) :=
  match n with
  | O => Ok []
  | S n' =>
    do c <- read_rcmd l off;
    do valid <- (if wal_crc then record_validate_cmd c l pos else Ok true);
    if valid : bool then
      do (ops, pos') <- replay_cmd l c pos;
      do rest <- replay_cmds wal_crc l n' (off + 25) pos';
      Ok (ops ++ rest)
    else Err
  end.
Definition replay_record (wal_crc : bool) (l : list Z) : res (list wop) :=
  do h <- read_header l;
  replay_cmds wal_crc l (Z.to_nat (h_count h)) 24 (24 + Z.to_nat (h_count h * 25)).
End Replay.
Definition replay_all := replay_record (fun _ _ => false).

(** ** wal.c: the files of the log in the order of their ids *)
Definition wal_files := list (Z * list Z).
(** id_mgr.h:103-115 id_mgr_min, 150-166 id_mgr_find, 168-186 id_mgr_next *)
Definition id_min (fs : wal_files) : option Z := match fs with [] => None | (id, _) :: _ => Some id end.
Fixpoint id_find (fs : wal_files) (value : Z) (id : option Z) : option Z :=
  match fs with
  | [] => id
  | (i, _) :: r => if value <? i then id else id_find r value (Some i)
  end.
Fixpoint id_next (fs : wal_files) (value : Z) : option Z :=
  match fs with
  | [] => None
  | (i, _) :: r => if value <? i then Some i else id_next r value
  end.
Fixpoint file_of (fs : wal_files) (id : Z) : res (list Z) :=
  match fs with
  | [] => Err
  | (i, f) :: r => if i =? id then Ok f else file_of r id
  end.

(** wal_cursor.h: the file, its known size and the offset *)
Record cursor := mkcursor { cu_id : Z; cu_size : nat; cu_off : nat }.
(** wal_cursor.c:98-146 wal_cursor_read: the record and the cursor.  The fuel bounds the
    number of files visited (two rounds per file: the size can have changed) *)
Fixpoint cursor_read (fuel : nat) (fs : wal_files) (file_next crc_on : bool) (c : cursor) : res (option (list Z) * cursor) :=
  match fuel with
  | O => UB
  | S n =>
    do f <- file_of fs (cu_id c);
    do r <- wal_file_pread f (cu_size c) (cu_off c);
    match r with
    | Some rec =>
      do valid <- (if crc_on then record_validate rec else Ok true);
      if valid : bool then
        do size <- get_u rec 12 4;
        Ok (Some rec, mkcursor (cu_id c) (cu_size c) (cu_off c + Z.to_nat size))
      else Err
    | None =>
      if negb (cu_size c =? length f)%nat then cursor_read n fs file_next crc_on (mkcursor (cu_id c) (length f) (cu_off c))
      else if negb file_next then Ok (None, c)
      else
        match id_next fs (cu_id c) with
        | None => Ok (None, c)
        | Some id =>
          do g <- file_of fs id;
          cursor_read n fs file_next crc_on (mkcursor id (length g) 0)
        end
    end
  end.
Definition read_fuel (fs : wal_files) : nat := 2 * length fs + 2.
(** wal_cursor.c:58-70: rewind to the first record with lsn >= [lsn].  [fuel] bounds the records *)
Fixpoint cursor_rewind (fuel : nat) (fs : wal_files) (file_next crc_on : bool) (lsn : Z) (c : cursor) : res cursor :=
  match fuel with
  | O => UB
  | S n =>
    do (r, c') <- cursor_read (read_fuel fs) fs file_next crc_on c;
    match r with
    | None => Ok c'
    | Some rec =>
      do l <- get_u rec 4 8;
      if lsn <=? l then do size <- get_u rec 12 4; Ok (mkcursor (cu_id c') (cu_size c') (cu_off c' - Z.to_nat size))
      else cursor_rewind n fs file_next crc_on lsn c'
    end
  end.
Definition total_bytes (fs : wal_files) : nat := length (flat_map snd fs).
(** wal_cursor.c:36-71 wal_cursor_open; None: the cursor has no file *)
Definition cursor_open (fs : wal_files) (lsn : Z) (file_next crc_on : bool) : res (option cursor) :=
  match (if lsn =? 0 then id_min fs else id_find fs lsn None) with
  | None => Ok None
  | Some id =>
    do f <- file_of fs id;
    do c <- cursor_rewind (S (total_bytes fs)) fs file_next crc_on lsn (mkcursor id (length f) 0);
    Ok (Some c)
  end.
(** wal_cursor_next until it returns false *)
Fixpoint cursor_drain (fuel : nat) (fs : wal_files) (file_next crc_on : bool) (c : cursor) : res (list (list Z) * cursor) :=
  match fuel with
  | O => UB
  | S n =>
    do (r, c') <- cursor_read (read_fuel fs) fs file_next crc_on c;
    match r with
    | None => Ok ([], c')
    | Some rec => do (recs, c2) <- cursor_drain n fs file_next crc_on c'; Ok (rec :: recs, c2)
    end
  end.
Definition wal_read_from (fs : wal_files) (lsn : Z) (crc_on : bool) : res (list (list Z)) :=
  do c <- cursor_open fs lsn true crc_on;
  match c with
  | None => Ok []
  | Some c => do (recs, _) <- cursor_drain (S (total_bytes fs)) fs true crc_on c; Ok recs
  end.
(** recover.c:203-241 recover_wal_main: the records in the order of their replay.  Every
    file has its own cursor that does not move to the next file *)
Fixpoint recover_files (fuel : nat) (fs : wal_files) (id : Z) (crc_on : bool) : res (list (list Z)) :=
  match fuel with
  | O => UB
  | S n =>
    do c <- cursor_open fs id false crc_on;
    match c with
    | None => Ok []
    | Some c =>
      do (recs, c') <- cursor_drain (S (total_bytes fs)) fs false crc_on c;
      match id_next fs (cu_id c') with
      | None => Ok recs
      | Some id' => do rest <- recover_files n fs id' crc_on; Ok (recs ++ rest)
      end
    end
  end.
Definition recover_wal (fs : wal_files) (crc_on : bool) : res (list (list Z)) := recover_files (S (length fs)) fs 0 crc_on.

(** ** the log over time *)
Record wal := mkwal { w_files : wal_files; w_lsn : Z }.
(** wal.c:253-284 wal_open: the last file becomes the current one; a new log gets file 1 *)
Definition wal_open (fs : wal_files) : wal_files := match fs with [] => [(1, [])] | _ => fs end.
Definition append_last (fs : wal_files) (b : list Z) : wal_files := set_last fs (fun '(id, f) => (id, f ++ b)).
(** wal.c:336-365 wal_write *)
Definition wal_write (wal_crc : bool) (w : wal) (ws : list write) : wal :=
  let '(bytes, lsn) := wal_write_list wal_crc (w_lsn w) ws in
  mkwal (append_last (w_files w) bytes) lsn.
(** wal.c:345-352: the write fails after [k] bytes, the file is truncated *)
Definition wal_write_failed (wal_crc : bool) (w : wal) (ws : list write) (k : nat) : wal :=
  let '(bytes, _) := wal_write_list wal_crc (w_lsn w) ws in
  let written := append_last (w_files w) (firstn k bytes) in
  mkwal (set_last written (fun '(id, f) => (id, firstn (length f - length (firstn k bytes)) f))) (w_lsn w).
(** wal.c:70-104 wal_create by wal_mgr.c:82-101: a new file for the next lsn.  O_EXCL: there is
    an error and nothing changes if the file exists.  The lsn is read and the file is added
    in one step here: see [wal_rotate_race] *)
Definition wal_create (w : wal) (lsn : Z) : wal :=
  if existsb (fun '(id, _) => id =? lsn) (w_files w) then w else mkwal (w_files w ++ [(lsn, [])]) (w_lsn w).
Definition wal_rotate (w : wal) : wal := wal_create w (w_lsn w + 1).
(** wal_worker.c:43-57: the worker reads state_lsn() without the lock of the log.  A
    transaction can be written to the current file before wal_create replaces it *)
Definition wal_rotate_race (wal_crc : bool) (w : wal) (ws : list write) : wal :=
  let lsn := w_lsn w + 1 in wal_create (wal_write wal_crc w ws) lsn.
(** recover.c:168-174, global.h:64-70: the lsn after a restart.  [p] is the lsn that comes from
    the catalog and partition files (catalog_file.c:147, part_mgr.c:81) *)
Definition recovered_lsn (p : Z) (recs : list (list Z)) : Z :=
  fold_left (fun l r => match get_u r 4 8 with Ok x => Z.max l x | _ => l end) recs p.
Definition wal_restart (wal_crc : bool) (w : wal) (p : Z) : res wal :=
  let fs := wal_open (w_files w) in
  do recs <- recover_wal fs wal_crc; Ok (mkwal fs (recovered_lsn p recs)).

(** wal.c:44-58 wal_slots *)
Definition wal_slots (slots : list Z) (min : Z) : Z := fold_left (fun m s => if m <? s then s else m) slots min.
(** id_mgr.h:188-220 id_mgr_gc_between: the files that remain *)
Fixpoint gc_between (fs : wal_files) (id : Z) : wal_files :=
  match fs with
  | _ :: (((i, _) :: _) as r) => if i <=? id then gc_between r id else fs
  | _ => fs
  end.
(** wal.c:106-134 wal_gc *)
Definition wal_gc (w : wal) (slots : list Z) (min : Z) : wal := mkwal (gc_between (w_files w) (wal_slots slots min)) (w_lsn w).

(** wal.c:183-251 wal_truncate.  The offset of the end of the last record to keep; [fuel] bounds the records *)
Fixpoint truncate_offset (fuel : nat) (f : list Z) (crc_on : bool) (lsn : Z) (off : nat) : res nat :=
  match fuel with
  | O => UB
  | S n =>
    do r <- wal_file_pread f (length f) off;
    match r with
    | None => Ok off
    | Some rec =>
      do valid <- (if crc_on then record_validate rec else Ok true);
      if valid : bool then
        do l <- get_u rec 4 8; do size <- get_u rec 12 4;
        if lsn <? l then Ok off
        else if l =? lsn then Ok (off + Z.to_nat size)%nat
        else truncate_offset n f crc_on lsn (off + Z.to_nat size)
      else Err
    end
  end.
(** the files after the matched one are removed *)
Fixpoint truncate_files (fs : wal_files) (id : Z) (off : nat) : wal_files :=
  match fs with
  | [] => []
  | (i, f) :: r => if i =? id then [(i, firstn off f)] else (i, f) :: truncate_files r id off
  end.
Definition wal_truncate (fs : wal_files) (lsn : Z) (crc_on : bool) : res wal_files :=
  if lsn =? 0 then Ok fs
  else
    match (match id_find fs lsn None with None => id_min fs | i => i end) with
    | None => Err
    | Some id =>
      do f <- file_of fs id;
      do off <- truncate_offset (S (length f)) f crc_on lsn 0;
      Ok (truncate_files fs id off)
    end.
(** a crash: only the first [k] bytes of a batch are in the file *)
Definition wal_crash (wal_crc : bool) (w : wal) (ws : list write) (k : nat) : wal_files :=
  append_last (w_files w) (firstn k (fst (wal_write_list wal_crc (w_lsn w) ws))).
