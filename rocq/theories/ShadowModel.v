(** Writes that run concurrently with a checkpoint of a partition or with CREATE INDEX:
    the rows written meanwhile go to a second ("shadow") heap, which is merged at the end.
    amelie/db/service/refresh.c, amelie/db/service/indexate.c, amelie/db/heap/heap.c,
    amelie/db/part/part_op.c.

    A heap is the list of its rows in the order of the iteration; the chunks and free
    lists below it are the subject of HeapProps.v.  Rows are identified by their address
    [rid]; an address is never used again in the model (a row that was released is not in
    a heap any more). *)
From Verif Require Import PartModel ReplayModel IdxModel.
From Coq Require Import List ZArith Lia Bool.
Import ListNotations.
Open Scope Z_scope.

(** a chunk of the shadow heap: a row, or the address of a row of the main heap to be
    released later (heap.h HeapChunk is_shadow_free) *)
Inductive sent := SRow (r : row) | SFree (r : row).

Record sst := mks {
  s_p : part;                  (* the indexes *)
  s_main : list row;           (* part->heap *)
  s_sh : option (list sent);   (* part->heap->shadow *)
  s_flag : Z -> bool           (* heap.h HeapChunk is_shadow, by address *)
}.

Definition with_p (s : sst) (p : part) : sst := mks p (s_main s) (s_sh s) (s_flag s).

Definition drop_row (a : Z) (l : list row) : list row := filter (fun r => negb (rid r =? a)) l.
Definition drop_sent (a : Z) (l : list sent) : list sent :=
  filter (fun e => match e with SRow r => negb (rid r =? a) | SFree _ => true end) l.

(* heap.c:186-260 heap_add *)
Definition heap_add (s : sst) (r : row) : sst :=
  match s_sh s with
  | Some l => mks (s_p s) (s_main s) (Some (l ++ [SRow r])) (fun a => if a =? rid r then true else s_flag s a)
  | None => mks (s_p s) (s_main s ++ [r]) None (fun a => if a =? rid r then false else s_flag s a)
  end.

(* heap.c:262-306 heap_remove; None: self->shadow is NULL and used *)
Definition heap_remove (s : sst) (r : row) : option sst :=
  if s_flag s (rid r) then
    match s_sh s with
    | Some l => Some (mks (s_p s) (s_main s) (Some (drop_sent (rid r) l)) (s_flag s))
    | None => None
    end
  else
    match s_sh s with
    | Some l => Some (mks (s_p s) (s_main s) (Some (l ++ [SFree r])) (s_flag s))   (* shadow_free is set *)
    | None => Some (mks (s_p s) (drop_row (rid r) (s_main s)) None (s_flag s))
    end.

Fixpoint remove_all (s : sst) (l : list row) : option sst :=
  match l with
  | [] => Some s
  | r :: t => match heap_remove s r with Some s1 => remove_all s1 t | None => None end
  end.

(** the end of a transaction: the lists of the model start anew *)
Definition fresh (q : part) : part := mkpart (ix q) (nsec q) [] [] [] [] (next q).

(* one transaction, committed or aborted (commit.c:38-68): the heap gets the rows it
   created (row_create, row_update: heap_row.h:15-23 row_allocate) and loses the rows it
   released.  Simplified: the releases of part_upsert are done at the end, too *)
Definition write (s : sst) (ops : list op) : option sst :=
  let '(p1, st) := run (s_p s) ops in
  let q := match st with SOk => tr_commit p1 | _ => tr_abort p1 end in
  remove_all (fold_left heap_add (made q) (with_p s (fresh q))) (freed q).
Fixpoint writes (s : sst) (txs : list (list op)) : option sst :=
  match txs with
  | [] => Some s
  | t :: r => match write s t with Some s1 => writes s1 r | None => None end
  end.

(* refresh.c:71-75 and indexate.c:98-101: heap_snapshot(heap, shadow, true) with an empty
   shadow heap, under the exclusive lock of the table *)
Definition snapshot_begin (s : sst) : sst := mks (s_p s) (s_main s) (Some []) (s_flag s).

(* heap_row.h:40-47 row_copy into the main heap (its shadow is NULL by now), then
   part_op.c:258-282 part_apply(delete = false): every index points to the copy *)
Definition copy_row (s : sst) (r : row) : sst * row :=
  let c := mkrow (next (s_p s)) (rkeys r) (rdata r) in
  let p := part_apply (s_p s) c in
  (heap_add (with_p s (mkpart (ix p) (nsec p) [] [] [] [] (next p + 1))) c, c).

(* refresh.c:155-175, the loop over the shadow heap *)
Fixpoint merge (s : sst) (l : list sent) : option sst :=
  match l with
  | [] => Some s
  | SFree r :: t => match heap_remove s r with Some s1 => merge s1 t | None => None end
  | SRow r :: t => merge (fst (copy_row s r)) t
  end.

(* refresh.c:131-182 refresh_apply: heap_snapshot(heap, NULL, false), then the merge *)
Definition refresh_apply (s : sst) : option sst :=
  match s_sh s with
  | Some l => merge (mks (s_p s) (s_main s) None (s_flag s)) l
  | None => None
  end.

(** refresh.c:269-311 refresh_run: the image that refresh_snapshot_job writes is the main
    heap, which is read while the transactions [txs] run *)
Definition refresh (s : sst) (txs : list (list op)) : option (sst * list row) :=
  match writes (snapshot_begin s) txs with
  | Some s1 => match refresh_apply s1 with Some s2 => Some (s2, s_main s1) | None => None end
  | None => None
  end.

(** *** CREATE INDEX *)
(* indexate.c:151-187: the merge, which also fills the new index [m].  The flag: false if
   "index unique constraint violation" was raised *)
Fixpoint index_merge (i : nat) (s : sst) (m : Z -> option row) (l : list sent) : option (sst * (Z -> option row) * bool) :=
  match l with
  | [] => Some (s, m, true)
  | SFree r :: t => match heap_remove s r with Some s1 => index_merge i s1 m t | None => None end
  | SRow r :: t =>
    let '(s1, c) := copy_row s r in
    match m (key_of i c) with
    | Some _ => Some (s1, m, false)
    | None => index_merge i s1 (fun k => if k =? key_of i c then Some c else m k) t
    end
  end.

(* indexate.c:244-277 indexate_next: indexate_job (line 107), indexate_apply (139),
   indexate_abort: the index was not attached to this partition yet, nothing else is undone *)
Definition indexate_finish (s : sst) : option (sst * status) :=
  let i := S (nsec (s_p s)) in
  match build i (fun _ => None) (s_main s), s_sh s with
  | None, _ => Some (s, SErr)                                     (* heap->shadow stays set *)
  | Some _, None => None
  | Some m, Some l =>
    match index_merge i (mks (s_p s) (s_main s) None (s_flag s)) m l with
    | None => None
    | Some (s1, _, false) => Some (s1, SErr)
    | Some (s1, m1, true) =>
      let p := s_p s1 in                                          (* part.c:92-103 part_index_add *)
      Some (with_p s1 (mkpart (fun j k => if Nat.eqb j i then m1 k else ix p j k) i
                              (log p) (wal p) (freed p) (made p) (next p)), SOk)
    end
  end.
Definition indexate (s : sst) (txs : list (list op)) : option (sst * status) :=
  match writes (snapshot_begin s) txs with
  | Some s1 => indexate_finish s1
  | None => None
  end.
