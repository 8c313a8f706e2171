(** Model of the files of the catalog: catalog_file.c:150-172 (catalog_read) and 222-275 (catalog_write).
    The directory holds two names.  Every step below is one system call (the text is written in as
    many calls as there are bytes, since write may stop anywhere: runtime/os/vfs.c:159-174).
    Directory changes take effect in their order; that is an assumption about the file system
    ("todo: sync dir", catalog_file.c:165, 252, 267). *)
From Verif Require Import Base.

(** a file: its bytes and whether they are known to be on the disk *)
Record cfile := mkcf { cf_bytes : list Z; cf_synced : bool }.
(** catalog.json and catalog.json.incomplete *)
Record cdir := mkcd { d_main : option cfile; d_inc : option cfile }.

Inductive fop := UnlinkInc | CreateInc | AppendInc (b : Z) | SyncInc | UnlinkMain | RenameInc.
(** runtime/os/fs.h fs_unlink, fs_rename; runtime/os/file.h file_open_as (O_CREAT without O_TRUNC),
    file_write, file_sync *)
Definition fstep (d : cdir) (o : fop) : cdir :=
  match o with
  | UnlinkInc => mkcd (d_main d) None
  | CreateInc => mkcd (d_main d) (Some match d_inc d with None => mkcf [] false | Some f => f end)
  | AppendInc b => mkcd (d_main d) (option_map (fun f => mkcf (cf_bytes f ++ [b]) false) (d_inc d))
  | SyncInc => mkcd (d_main d) (option_map (fun f => mkcf (cf_bytes f) true) (d_inc d))
  | UnlinkMain => mkcd None (d_inc d)
  | RenameInc => mkcd (d_inc d) None
  end.
(** catalog_file.c:222-272 catalog_write: [sync] is the option catalog_sync *)
Definition catalog_write_ops (sync : bool) (d : cdir) (text : list Z) : list fop :=
  (if d_inc d then [UnlinkInc] else []) ++ [CreateInc] ++ map AppendInc text ++ (if sync then [SyncInc] else []) ++
  (if d_main d then [UnlinkMain] else []) ++ [RenameInc].
(** catalog_file.c:150-180 catalog_read: the files after it and the text it reads *)
Definition catalog_read_file (d : cdir) : res (cdir * list Z) :=
  match d_main d with
  | Some f => Ok (mkcd (Some f) None, cf_bytes f)
  | None => match d_inc d with
            | Some f => Ok (mkcd (Some f) None, cf_bytes f)
            | None => Err
            end
  end.
(** the process stops after [n] calls *)
Definition stopped (sync : bool) (n : nat) (d : cdir) (text : list Z) : cdir := fold_left fstep (firstn n (catalog_write_ops sync d text)) d.
(** the machine stops too: bytes that are not known to be on the disk may be lost or wrong *)
Definition file_after_loss (f f' : option cfile) : Prop :=
  match f, f' with
  | None, None => True
  | Some a, Some b => if cf_synced a then b = a else cf_synced b = true
  | _, _ => False
  end.
Definition power_loss (d d' : cdir) : Prop := file_after_loss (d_main d) (d_main d') /\ file_after_loss (d_inc d) (d_inc d').
