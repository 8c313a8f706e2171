(** Model of the refresh (checkpoint) and the flush of a partition on disk and of their recovery:
    db/service/refresh.c, flush.c, service_file.h, service_recover.c, op.c, the recovery of
    partitions in db/part/part_mgr_recover.c, and the lsn rule of db/db/recover.c:69.
    The service code names files by the constants ID_PART, ID_SERVICE, ID_OBJECT and
    ..._INCOMPLETE; the version of id.h in the tree has no such constants (it was changed to
    STATE_..., db/service was not), they are modelled as what the comments say: the file of an
    object, and the same with the suffix .incomplete. *)
From Verif Require Import Base.
Local Open Scope Z_scope.

(** id.h:100-130 id_path: a file is named by its kind, its number (psn) and whether it is
    incomplete.  The volume is part of the number here *)
Inductive fname := Part (id : Z) (incomplete : bool) | Obj (id : Z) (incomplete : bool) | Svc (id : Z) (incomplete : bool).
Definition fname_eqb (a b : fname) : bool :=
  match a, b with
  | Part i x, Part j y | Obj i x, Obj j y | Svc i x, Svc j y => (i =? j) && Bool.eqb x y
  | _, _ => false
  end.
(** [Image from lsn]: a heap file, [lsn] is the one of its header, it has the effects of exactly
    the transactions of the partition with an lsn above [from] and not above [lsn].
    [Rows from lsn]: an object with the effects of these transactions.  [Torn]: a file that was not
    written to its end.  [Service]: the files of the input and output lists of a service file *)
Inductive content := Image (from lsn : Z) | Rows (from lsn : Z) | Torn | Service (ins outs : list fname).
Definition disk := fname -> option content.
Definition dset (d : disk) (n : fname) (v : option content) : disk := fun m => if fname_eqb m n then v else d m.

(** The operations on files: id_create and writes (id.h:132-138), id_delete (148-155), id_rename
    (157-167; the file exists here), and refresh.c:88, the assignment of header->lsn in memory *)
Inductive fop := SetLsn (lsn : Z) | Write (n : fname) (c : content) | Unlink (n : fname) | Rename (a b : fname).
Definition do_op (d : disk) (o : fop) : disk :=
  match o with
  | SetLsn _ => d
  | Write n c => dset d n (Some c)
  | Unlink n => dset d n None
  | Rename a b => match d a with Some c => dset (dset d a None) b (Some c) | None => d end
  end.

(** refresh.c:79-131 refresh_snapshot_job and refresh_complete_job with service_file.h:75-128.
    sync and close change nothing here: the crash is one of the process *)
Definition refresh_ops (origin new svc from lsn : Z) : list fop :=
  [ SetLsn lsn;
    Write (Part new true) (Image from lsn);
    Write (Svc svc true) (Service [Part origin false] [Part new false]);
    Rename (Svc svc true) (Svc svc false);
    Unlink (Part origin false);
    Rename (Part new true) (Part new false);
    Unlink (Svc svc false) ].
(** flush.c:74-253 flush_job, flush_apply and flush_complete_job: the rows move to the object
    [branch], the new heap file is empty.  flush_apply makes the shadow heap the heap of the
    partition, its header has the lsn 0 (heap.c:54) *)
Definition flush_ops (origin new branch svc from lsn : Z) : list fop :=
  [ Write (Part new true) (Image lsn lsn);
    Write (Obj branch true) (Rows from lsn);
    SetLsn 0;
    Write (Svc svc true) (Service [Part origin false] [Part new false; Obj branch false]);
    Rename (Svc svc true) (Svc svc false);
    Unlink (Part origin false);
    Rename (Part new true) (Part new false);
    Rename (Obj branch true) (Obj branch false);
    Unlink (Svc svc false) ].

(** service_recover.c:26-45 service_recover_gc *)
Definition gc_files (d : disk) (l : list fname) : disk := fold_left (fun d n => dset d n None) l d.
Definition exists_ (d : disk) (n : fname) : bool := match d n with Some _ => true | None => false end.
(** service_recover.c:47-89 service_recover_of *)
Definition recover_of (d : disk) (svc : Z) : disk :=
  match d (Svc svc false) with
  | Some (Service ins outs) =>
    dset (gc_files d (if forallb (exists_ d) outs then ins else outs)) (Svc svc false) None
  | _ => d
  end.
(** service_recover.c:91-146 service_recover: [order] is the directory as readdir returns it *)
Definition service_recover (d : disk) (order : list (Z * bool)) : disk :=
  fold_left (fun d (e : Z * bool) => let (id, inc) := e in if inc then dset d (Svc id true) None else recover_of d id) order d.

(** op.c:94-133 service_gc and part.h:48 part_has_updates: the least lsn that must stay in the
    log, [None] if nothing must.  One partition, no pending changes of the catalog *)
Definition gc_min (hdr trk : Z) : option Z := if hdr <? trk then Some hdr else None.

(** A partition and its files.  [s_hdr] is header->lsn and [s_trk] is track.lsn in memory; [s_low]:
    the log has the records with an lsn not below it; [s_from]: the heap in memory has the
    transactions above it; [s_commits]: the lsns of the committed
    transactions of the partition; [s_todo]: the operations left of the running service *)
Record st := mkst { s_disk : disk; s_part : Z; s_from : Z; s_psn : Z; s_hdr : Z; s_trk : Z; s_low : Z; s_commits : list Z; s_todo : list fop }.
(** a new table: part_mgr_recover.c:88-140, the file of the partition is complete *)
Definition st_init : st := mkst (dset (fun _ => None) (Part 0 false) (Some (Image 0 0))) 0 0 1 0 0 1 [] [].

Inductive event :=
| Commit (lsn : Z)  (* a transaction of the partition is written to the log and committed *)
| Begin_refresh     (* refresh.c:26-77 refresh_begin *)
| Begin_flush       (* flush.c:26-72 flush_begin *)
| Step              (* the next operation of the service *)
| Gc (low : Z).     (* op.c:94-133: service_gc by this or another session removes records below [low] *)

Definition step (s : st) (e : event) : option st :=
  match e with
  | Commit lsn =>
    if s_trk s <? lsn then Some (mkst (s_disk s) (s_part s) (s_from s) (s_psn s) (s_hdr s) lsn (s_low s) (s_commits s ++ [lsn]) (s_todo s)) else None
  | Begin_refresh =>
    match s_todo s with
    | [] => Some (mkst (s_disk s) (s_psn s) (s_from s) (s_psn s + 2) (s_hdr s) (s_trk s) (s_low s) (s_commits s)
                       (refresh_ops (s_part s) (s_psn s) (s_psn s + 1) (s_from s) (s_trk s)))
    | _ => None
    end
  | Begin_flush =>
    match s_todo s with
    | [] => Some (mkst (s_disk s) (s_psn s) (s_trk s) (s_psn s + 3) (s_hdr s) (s_trk s) (s_low s) (s_commits s)
                       (flush_ops (s_part s) (s_psn s) (s_psn s + 1) (s_psn s + 2) (s_from s) (s_trk s)))
    | _ => None
    end
  | Step =>
    match s_todo s with
    | [] => None
    | o :: r => Some (mkst (do_op (s_disk s) o) (s_part s) (s_from s) (s_psn s) (match o with SetLsn l => l | _ => s_hdr s end)
                           (s_trk s) (s_low s) (s_commits s) r)
    end
  | Gc low =>
    if (s_low s <=? low) && (low <=? s_trk s + 1) && (match gc_min (s_hdr s) (s_trk s) with Some m => low <=? m | None => true end)
    then Some (mkst (s_disk s) (s_part s) (s_from s) (s_psn s) (s_hdr s) (s_trk s) low (s_commits s) (s_todo s)) else None
  end.
Fixpoint run (s : st) (l : list event) : option st :=
  match l with [] => Some s | e :: r => match step s e with Some s' => run s' r | None => None end end.

(** The files after a crash of the process: the operations that were done, and a file that was
    being written may have any part of its content *)
Definition crashed (s : st) (d : disk) : Prop :=
  d = s_disk s \/ exists n c r, s_todo s = Write n c :: r /\ d = dset (s_disk s) n (Some Torn).
