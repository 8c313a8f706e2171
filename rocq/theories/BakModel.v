(** Model of a hot backup: sync/backup/backup.c (the server), sync/backup/restore.c (the client),
    db/db/snapshot_mgr.c, db/catalog/catalog_snapshot.c, db/wal/wal.c:422-446, db/db/db.c:71-90, over
    the server of DurModel.v.

    Simplified: one backup at a time (a second one fails, its hard links have the names of the first
    one); objects of tiers, version.json, config.json and state.json are not modelled; a log file
    that is sent holds any number of records. *)
From Verif Require Import Base DurModel.
Local Open Scope nat_scope.

(** a partition by its table and number; a file is what DurModel.v has for it *)
Notation pid := (nat * nat)%type.
Notation file := (nat * rows)%type.
(** the backup.  [Linking]: snapshot_mgr_create under the exclusive lock of the catalog: the dump of
    the catalog with its lsn, the partitions that have no hard link yet, the hard links.
    [Fetching]: the lock is released, the client asks for the files of the list, then for the log;
    a hard link is [None] when its directory has been removed; what the client has.
    [Complete]: the directory the client has written.  [Failed]: the client reports an error *)
Inductive phase :=
  | Idle
  | Linking (lsn : nat) (c : cat) (rest : list pid) (links : list (pid * file))
  | Fetching (lsn : nat) (c : cat) (links : list (pid * option file)) (wal : list (nat * stmt)) (got : list (pid * file)) (got_wal : list (nat * stmt))
  | Complete (d : disk)
  | Failed.
(** the server and the backup *)
Definition system := (server * phase)%type.

(** catalog_snapshot.c:54-67: the partitions of all tables *)
Definition parts (m : mem) : list pid :=
  flat_map (fun q : nat * (nat * Z) => map (fun p => (fst q, p)) (filter (fun p => match m_part m (fst q) p with Some _ => true | None => false end) (seq 0 (fst (snd q))))) (m_cat m).
(** the files of the directory of the client *)
Fixpoint file_of (l : list (pid * file)) (t p : nat) : option file :=
  match l with [] => None | ((t', p'), f) :: l => if (t' =? t) && (p' =? p) then Some f else file_of l t p end.
(** part_mgr.c:97-115, volume.h:174-209, fs.h:82-110: behind the last file of a dropped table the
    directory goes with all that is in it, the hard links too *)
Definition volume_gone (x : server) (e : event) : option nat :=
  match e, x_todo x with Step, [MRemove t _; MCommit _] => Some t | _, _ => None end.
Definition unlink (gone : option nat) (links : list (pid * option file)) : list (pid * option file) :=
  match gone with
  | None => links
  | Some t => map (fun l : pid * option file => (fst l, if fst (fst l) =? t then None else snd l)) links
  end.
(** backup.c:53-92 backup_send_file of a log file: what the file has now, an error if it is gone *)
Fixpoint read_wal (names : list (nat * stmt)) (wal : list (nat * stmt)) : option (list (nat * stmt)) :=
  match names with
  | [] => Some []
  | r :: names =>
      match find (fun r' => fst r' =? fst r) wal with
      | Some r' => match read_wal names wal with Some l => Some (r' :: l) | None => None end
      | None => None
      end
  end.

(** [Srv e]: the server does something (DurModel.v).  [Take]: the catalog lock is granted, the catalog
    is dumped.  [Link]: one hard link.  [ListWal]: wal_snapshot, then the lock is released.
    [GetFile], [GetWal n]: the client asks for a file, a log file with [S n] records.  [Finish]: the
    client has all *)
Inductive bevent := Srv (e : event) | Take | Link | ListWal | GetFile | GetWal (n : nat) | Finish.
Definition bstep (y : system) (e : bevent) : option system :=
  let (x, b) := y in
  match e, b with
  (** the server is started again: the connection is closed *)
  | Srv Restart, (Linking _ _ _ _ | Fetching _ _ _ _ _ _) => match step x Restart with Some x' => Some (x', Failed) | None => None end
  (** db.c:72-77: statements, refreshes and service_gc wait for the lock of the catalog, only the
      removal of log files at the end of service_gc (op.c:128-132) does not *)
  | Srv (GcEnd low), Linking _ _ _ _ => match step x (GcEnd low) with Some x' => Some (x', b) | None => None end
  | Srv _, Linking _ _ _ _ => None
  | Srv e, Fetching lsn c links wal got got_wal =>
      match step x e with Some x' => Some (x', Fetching lsn c (unlink (volume_gone x e) links) wal got got_wal) | None => None end
  | Srv e, _ => match step x e with Some x' => Some (x', b) | None => None end
  (** catalog_snapshot.c:27-32 *)
  | Take, Idle => match x_todo x with [] => Some (x, Linking (m_pend (x_mem x)) (m_cat (x_mem x)) (parts (x_mem x)) []) | _ => None end
  (** id.h:169-186 id_snapshot *)
  | Link, Linking lsn c ((t, p) :: rest) links =>
      match d_file (x_disk x) t p with Some f => Some (x, Linking lsn c rest (links ++ [((t, p), f)])) | None => Some (x, Failed) end
  (** wal.c:422-446 *)
  | ListWal, Linking lsn c [] links => Some (x, Fetching lsn c (map (fun l => (fst l, Some (snd l))) links) (d_wal (x_disk x)) [] [])
  (** restore.c:280-290, 147-222 *)
  | GetFile, Fetching lsn c ((k, f) :: links) wal got got_wal =>
      match f with Some f => Some (x, Fetching lsn c links wal (got ++ [(k, f)]) got_wal) | None => Some (x, Failed) end
  (** restore.c:292-302 *)
  | GetWal n, Fetching lsn c [] (r :: wal) got got_wal =>
      match read_wal (firstn (S n) (r :: wal)) (d_wal (x_disk x)) with
      | Some l => Some (x, Fetching lsn c [] (skipn (S n) (r :: wal)) got (got_wal ++ l))
      | None => Some (x, Failed)
      end
  | Finish, Fetching lsn c [] [] got got_wal => Some (x, Complete (mkdisk lsn c (file_of got) got_wal))
  | _, _ => None
  end.
Fixpoint brun (y : system) (es : list bevent) : option system :=
  match es with [] => Some y | e :: es => match bstep y e with Some y' => brun y' es | None => None end end.
