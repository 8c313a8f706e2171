(** Model of what a server keeps over restarts: the catalog file, the files of partitions and the
    log together.  db/db/recover.c, db/service/op.c (checkpoint and removal of log files),
    system/session/session.c:218-242, db/catalog/catalog_file.c, db/part/part_mgr.c,
    part_mgr_recover.c, part_op.c.

    Simplified: a row is a key and a value; a table is named by its uuid, which is never used again,
    and has a definition that ALTER changes; a statement is written to the log in one step (C15);
    the refresh of a partition (C21) and the write of the catalog (C70) are one step; files are
    removed from the log at any record (files hold more records than one, so less is removed). *)
From Verif Require Import Base.
Local Open Scope nat_scope.

Definition rows := list (Z * Z).
(** index_replace_by: a row with the same key is replaced *)
Fixpoint put (k v : Z) (l : rows) : rows :=
  match l with [] => [(k, v)] | (k', v') :: r => if (k =? k')%Z then (k, v) :: r else (k', v') :: put k v r end.
(** part_op.c:238-249 part_delete_by: an error if there is no such row *)
Fixpoint del (k : Z) (l : rows) : option rows :=
  match l with
  | [] => None
  | (k', v') :: r => if (k =? k')%Z then Some r else match del k r with Some r' => Some ((k', v') :: r') | None => None end
  end.
Inductive rop := Put (k v : Z) | Del (k : Z).
Definition rop_do (o : rop) (l : rows) : option rows := match o with Put k v => Some (put k v l) | Del k => del k l end.
Fixpoint rops_do (os : list rop) (l : rows) : option rows :=
  match os with [] => Some l | o :: os => match rop_do o l with Some l' => rops_do os l' | None => None end end.

(** a statement as it is logged: the commands of a transaction, each for one partition of a table
    (C19), or one schema change.  A table has a number of partitions and a definition *)
Inductive stmt := Dml (cmds : list (nat * nat * list rop)) | Create (t n : nat) (d : Z) | Alter (t : nat) (d : Z) | Drop (t : nat) | Truncate (t : nat).
Definition is_ddl (s : stmt) : bool := match s with Dml _ => false | _ => true end.
Notation cat := (list (nat * (nat * Z))).
Fixpoint find_table (c : cat) (t : nat) : option (nat * Z) :=
  match c with [] => None | (t', x) :: c => if t =? t' then Some x else find_table c t end.
Definition remove_table (t : nat) (c : cat) : cat := filter (fun p => negb (fst p =? t)) c.
Definition alter_table (t : nat) (d : Z) (c : cat) : cat := map (fun p => if fst p =? t then (fst p, (fst (snd p), d)) else p) c.
(** catalog_execute (C49): the effect on the catalog *)
Definition cat_exec (c : cat) (s : stmt) : option cat :=
  match s with
  | Dml _ => Some c
  | Create t n d => match find_table c t with Some _ => None | None => Some (c ++ [(t, (n, d))]) end
  | Alter t d => match find_table c t with Some _ => Some (alter_table t d c) | None => None end
  | Drop t => match find_table c t with Some _ => Some (remove_table t c) | None => None end
  | Truncate t => match find_table c t with Some _ => Some c | None => None end
  end.

(** a partition in memory: header->lsn, track lsn, the rows in its indexes, and the rows that are in
    the heap but in no index (part.c:84-89 part_truncate clears the indexes only) *)
Record part := mkpart { hdr : nat; trk : nat; live : rows; leak : rows }.
Definition upd2 {A} (f : nat -> nat -> A) (t p : nat) (v : A) : nat -> nat -> A := fun t' p' => if (t' =? t) && (p' =? p) then v else f t' p'.
(** the disk: the catalog file (lsn, tables), the partition files (header->lsn, rows), the log *)
Record disk := mkdisk { d_clsn : nat; d_cat : cat; d_file : nat -> nat -> option (nat * rows); d_wal : list (nat * stmt) }.
(** the server: state_lsn, state_catalog_pending, the catalog, the partitions; a partition that
    has no file at the start does not exist *)
Record mem := mkmem { m_lsn : nat; m_pend : nat; m_cat : cat; m_part : nat -> nat -> option part }.

(** ** Recovery *)
(** part.c:57-74 part_open: the indexes are built from the rows of the file *)
Definition load (l : rows) : rows := fold_left (fun r (p : Z * Z) => put (fst p) (snd p) r) l [].
Definition part_open (f : nat * rows) : part := mkpart (fst f) (fst f) (load (snd f)) [].
(** part_mgr_recover.c:146-165: the files that are found; when there is none at all, all are created *)
Definition any_file (file : nat -> nat -> option (nat * rows)) (t n : nat) : bool :=
  existsb (fun p => match file t p with Some _ => true | None => false end) (seq 0 n).
Definition open_files (file : nat -> nat -> option (nat * rows)) (t n : nat) : nat -> nat -> option (nat * rows) :=
  if any_file file t n then file else fun t' p => if (t' =? t) && (p <? n) then Some (0, []) else file t' p.
(** part_mgr.c:45-84 part_mgr_open *)
Definition table_open (t n : nat) (d : disk) (m : mem) : disk * mem :=
  let file := open_files (d_file d) t n in
  (mkdisk (d_clsn d) (d_cat d) file (d_wal d),
   mkmem (fold_left (fun l p => match file t p with Some f => Nat.max l (fst f) | None => l end) (seq 0 n) (m_lsn m))
         (m_pend m) (m_cat m) (fun t' p => if t' =? t then (if p <? n then option_map part_open (file t p) else None) else m_part m t' p)).
(** catalog_file.c:103-150 catalog_restore *)
Definition catalog_load (d : disk) : disk * mem :=
  fold_left (fun (x : disk * mem) (p : nat * (nat * Z)) => table_open (fst p) (fst (snd p)) (fst x) (snd x)) (d_cat d)
            (d, mkmem (d_clsn d) (d_clsn d) (d_cat d) (fun _ _ => None)).
(** recover.c:53-73 recover_map, 75-110: one command of a record *)
Definition recover_cmd (lsn : nat) (m : mem) (c : nat * nat * list rop) : option mem :=
  let '(t, p, os) := c in
  match find_table (m_cat m) t with
  | None => Some m
  | Some _ =>
      match m_part m t p with
      | None => None
      | Some x =>
          let trk' := Nat.max (trk x) lsn in
          if lsn <=? hdr x then Some (mkmem (m_lsn m) (m_pend m) (m_cat m) (upd2 (m_part m) t p (Some (mkpart (hdr x) trk' (live x) (leak x)))))
          else match rops_do os (live x) with
               | Some l => Some (mkmem (m_lsn m) (m_pend m) (m_cat m) (upd2 (m_part m) t p (Some (mkpart (hdr x) trk' l (leak x)))))
               | None => None
               end
      end
  end.
Fixpoint recover_cmds (lsn : nat) (m : mem) (cs : list (nat * nat * list rop)) : option mem :=
  match cs with [] => Some m | c :: cs => match recover_cmd lsn m c with Some m' => recover_cmds lsn m' cs | None => None end end.
Definition set_cat (m : mem) (lsn : nat) (c : cat) : mem := mkmem (m_lsn m) lsn c (m_part m).
Definition set_lsn (m : mem) (lsn : nat) : mem := mkmem (Nat.max (m_lsn m) lsn) (m_pend m) (m_cat m) (m_part m).
(** part_mgr.c:96-115 part_mgr_drop *)
Definition drop_files (file : nat -> nat -> option (nat * rows)) (t : nat) : nat -> nat -> option (nat * rows) := fun t' p => if t' =? t then None else file t' p.
(** part_mgr.c:117-125 part_mgr_truncate *)
Definition truncate_parts (f : nat -> nat -> option part) (t : nat) : nat -> nat -> option part :=
  fun t' p => if t' =? t then option_map (fun x => mkpart (hdr x) (trk x) [] (leak x ++ live x)) (f t' p) else f t' p.
(** recover.c:112-136: a schema change is executed unless the catalog file has it *)
Definition recover_ddl (lsn : nat) (x : disk * mem) (s : stmt) : option (disk * mem) :=
  let (d, m) := x in
  if lsn <=? d_clsn d then Some (d, m)
  else match cat_exec (m_cat m) s with
       | None => None
       | Some c =>
           Some match s with
                | Create t n _ => table_open t n d (set_cat m lsn c)
                | Drop t => (mkdisk (d_clsn d) (d_cat d) (drop_files (d_file d) t) (d_wal d), set_cat m lsn c)
                | Truncate t => (d, mkmem (m_lsn m) lsn c (truncate_parts (m_part m) t))
                | _ => (d, set_cat m lsn c)
                end
       end.
(** recover.c:146-200 *)
Fixpoint recover_wal (l : list (nat * stmt)) (x : disk * mem) : option (disk * mem) :=
  match l with
  | [] => Some x
  | (lsn, s) :: l =>
      match (match s with
             | Dml cs => match recover_cmds lsn (snd x) cs with Some m => Some (fst x, m) | None => None end
             | _ => recover_ddl lsn x s
             end) with
      | Some (d, m) => recover_wal l (d, set_lsn m lsn)
      | None => None
      end
  end.
Definition restart (d : disk) : option (disk * mem) := recover_wal (d_wal d) (catalog_load d).

(** ** The running server *)
(** what is left to do of the statement that is executed *)
Inductive micro := MFile (t p : nat) | MLog (s : stmt) | MRemove (t p : nat) | MCommit (s : stmt).
(** [x_gc]: service_gc has computed the lsn and will remove log files; not part of the server: the
    lsn of the server at that time, and [g_log], all statements that were ever logged, the first one
    has lsn 1 *)
Record server := mkserver { x_disk : disk; x_mem : mem; x_todo : list micro; x_gc : option (option nat * nat); g_log : list stmt }.
Inductive event := Begin (s : stmt) | Step | Refresh (t p : nat) | Catalog | GcStart | GcEnd (low : nat) | Restart.

(** statements the executor gets to the log: commands for tables and partitions that are there,
    deletes of rows that are there, uuids of tables that are new *)
Definition used (log : list stmt) (t : nat) : bool := existsb (fun s => match s with Create t' _ _ => t =? t' | _ => false end) log.
Fixpoint dml_ok (m : mem) (cs : list (nat * nat * list rop)) (lsn : nat) : option mem :=
  match cs with
  | [] => Some m
  | (t, p, os) :: cs =>
      match find_table (m_cat m) t, m_part m t p with
      | Some (n, _), Some x =>
          if p <? n then match rops_do os (live x) with
                         | Some l => dml_ok (mkmem (m_lsn m) (m_pend m) (m_cat m) (upd2 (m_part m) t p (Some (mkpart (hdr x) lsn l (leak x))))) cs lsn
                         | None => None
                         end else None
      | _, _ => None
      end
  end.
Definition stmt_ok (x : server) (s : stmt) : bool :=
  match s with
  | Dml [] => false
  | Dml cs => match dml_ok (x_mem x) cs 0 with Some _ => true | None => false end
  | Create t n _ => negb (used (g_log x) t) && (1 <=? n)
  | Alter t _ | Drop t | Truncate t => match find_table (m_cat (x_mem x)) t with Some _ => true | None => false end
  end.
(** table_mgr_create opens the table before the statement is logged (session.c:186-242); tr_commit
    of DROP TABLE removes the files *)
Definition micros (m : mem) (s : stmt) : list micro :=
  match s with
  | Create t n _ => map (MFile t) (seq 0 n) ++ [MLog s; MCommit s]
  | Drop t => [MLog s] ++ map (MRemove t) (seq 0 match find_table (m_cat m) t with Some (n, _) => n | None => 0 end) ++ [MCommit s]
  | _ => [MLog s; MCommit s]
  end.
(** the effect in memory of a statement with its lsn (the pending lsn of schema changes is set too) *)
Definition mem_commit (m : mem) (s : stmt) : option mem :=
  let lsn := m_lsn m in
  match s with
  | Dml cs => dml_ok m cs lsn
  | _ => match cat_exec (m_cat m) s with
         | None => None
         | Some c => Some match s with
                          | Create t n _ => mkmem lsn lsn c (fun t' p => if t' =? t then (if p <? n then Some (mkpart 0 0 [] []) else None) else m_part m t' p)
                          | Truncate t => mkmem lsn lsn c (truncate_parts (m_part m) t)
                          | _ => mkmem lsn lsn c (m_part m)
                          end
         end
  end.
Definition micro_do (x : server) (o : micro) (todo : list micro) : option server :=
  let d := x_disk x in let m := x_mem x in
  match o with
  | MFile t p => Some (mkserver (mkdisk (d_clsn d) (d_cat d) (upd2 (d_file d) t p (Some (0, []))) (d_wal d)) m todo (x_gc x) (g_log x))
  | MLog s => Some (mkserver (mkdisk (d_clsn d) (d_cat d) (d_file d) (d_wal d ++ [(S (m_lsn m), s)])) (mkmem (S (m_lsn m)) (m_pend m) (m_cat m) (m_part m)) todo (x_gc x) (g_log x ++ [s]))
  | MRemove t p => Some (mkserver (mkdisk (d_clsn d) (d_cat d) (upd2 (d_file d) t p None) (d_wal d)) m todo (x_gc x) (g_log x))
  | MCommit s => match mem_commit m s with Some m' => Some (mkserver d m' todo (x_gc x) (g_log x)) | None => None end
  end.
(** op.c:94-131: [None] is UINT64_MAX; part.h:45-49 part_has_updates *)
Definition min_opt (a : option nat) (b : nat) : option nat := Some match a with None => b | Some a => Nat.min a b end.
Definition gc_table (m : mem) (r : option nat) (q : nat * (nat * Z)) : option nat :=
  fold_left (fun r p => match m_part m (fst q) p with Some x => if hdr x <? trk x then min_opt r (hdr x) else r | None => r end) (seq 0 (fst (snd q))) r.
Definition gc_min (x : server) : option nat :=
  fold_left (gc_table (x_mem x)) (m_cat (x_mem x)) (if d_clsn (x_disk x) <? m_pend (x_mem x) then Some (d_clsn (x_disk x)) else None).
Definition below (low : nat) (min : option nat) : bool := match min with None => true | Some m => low <=? m end.

Definition step (x : server) (e : event) : option server :=
  let d := x_disk x in let m := x_mem x in
  match e with
  | Begin s => match x_todo x with [] => if stmt_ok x s then Some (mkserver d m (micros m s) (x_gc x) (g_log x)) else None | _ => None end
  | Step => match x_todo x with [] => None | o :: todo => micro_do x o todo end
  (** refresh.c (C21): the heap with its rows goes to the file, header->lsn is the track lsn *)
  | Refresh t p =>
      match x_todo x, find_table (m_cat m) t, m_part m t p with
      | [], Some (n, _), Some y => if p <? n then Some (mkserver (mkdisk (d_clsn d) (d_cat d) (upd2 (d_file d) t p (Some (trk y, leak y ++ live y))) (d_wal d))
                                             (mkmem (m_lsn m) (m_pend m) (m_cat m) (upd2 (m_part m) t p (Some (mkpart (trk y) (trk y) (live y) (leak y))))) [] (x_gc x) (g_log x)) else None
      | _, _, _ => None
      end
  (** op.c:56-58, catalog_file.c:222-275 (C70) *)
  | Catalog => match x_todo x with [] => Some (mkserver (mkdisk (m_pend m) (m_cat m) (d_file d) (d_wal d)) m [] (x_gc x) (g_log x)) | _ => None end
  | GcStart => match x_todo x with [] => Some (mkserver d m [] (Some (gc_min x, m_lsn m)) (g_log x)) | _ => None end
  (** op.c:132 wal_gc (C17): records from [low] on are kept *)
  | GcEnd low => match x_gc x with
                 | Some (min, _) => if below low min && (low <=? S (m_lsn m))
                               then Some (mkserver (mkdisk (d_clsn d) (d_cat d) (d_file d) (filter (fun r => low <=? fst r) (d_wal d))) m (x_todo x) None (g_log x)) else None
                 | None => None
                 end
  (** the process ends at any point and is started again *)
  | Restart => match restart d with Some (d', m') => Some (mkserver d' m' [] None (g_log x)) | None => None end
  end.
Fixpoint run (x : server) (es : list event) : option server :=
  match es with [] => Some x | e :: es => match step x e with Some x' => run x' es | None => None end end.
Definition server_init : server := mkserver (mkdisk 0 [] (fun _ _ => None) []) (mkmem 0 0 [] (fun _ _ => None)) [] None [].
