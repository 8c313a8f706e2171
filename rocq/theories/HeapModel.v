(** Model of the heap of a partition: db/heap/heap.c, heap.h, page_mgr.h, heap_iterator.h,
    heap_file.c (what is written and read), heap_row.h, and the end of a snapshot,
    refresh.c:133-180 refresh_apply.
    Simplifications: the lru list is not modelled (every heap is made by heap_allocate(false));
    the page number has 19 bits in a chunk, here it has no limit (a heap below 256 GiB); a page is
    a separate area of memory, as mmap returns it; assert does nothing (-DNDEBUG). *)
From Verif Require Import Base.
Local Open Scope Z_scope.

(** page_mgr.h:44, sizeof(PageHeader), sizeof(HeapChunk) *)
Definition PAGE : Z := 524288.
Definition PAGE_HEADER : Z := 24.
Definition CHUNK : Z := 24.

(** heap.c:20-34 heap_set: the sizes of [n] buckets *)
Fixpoint heap_set (n : nat) (size step : Z) : list Z :=
  match n with O => [] | S n' => (size + step) :: heap_set n' (size + step) step end.
(** heap.c:85-96 *)
Definition buckets : list Z :=
  heap_set 64 0 16 ++ heap_set 32 1024 32 ++ heap_set 32 2048 64 ++ heap_set 32 4096 128 ++
  heap_set 32 8192 256 ++ heap_set 32 16384 512 ++ heap_set 32 32768 1024 ++ heap_set 32 65536 2048 ++
  heap_set 32 131072 4096 ++ heap_set 32 262144 8192 ++ heap_set 32 524288 16384 ++ heap_set 1 1048576 0.
Definition bsize (b : Z) : Z := nth (Z.to_nat b) buckets 0.
(** heap.c:130-152 heap_log_to_bucket *)
Definition groups : list (Z * Z) :=
  [(0, 16); (0, 16); (0, 16); (0, 16); (0, 16); (0, 16); (0, 16); (0, 16); (0, 16); (64, 32); (96, 64); (128, 128);
   (160, 256); (192, 512); (224, 1024); (256, 2048); (288, 4096); (320, 8192); (352, 16384); (384, 0)].
(** heap.c:154-185 heap_bucket_of; size is at least 2 and at most 2^20, other sizes read outside of
    the table *)
Definition bucket_of (size : Z) : Z :=
  let log2 := Z.log2 size in
  let (bucket, step) := nth (Z.to_nat (log2 - 1)) groups (0, 0) in
  if step =? 0 then bucket
  else bucket + (if log2 <=? 9 then size / step else (size - Z.shiftl 1 log2) / step).

(** a chunk is named by its page and offset *)
Definition addr := (nat * Z)%type.
Definition addr_eqb (a b : addr) : bool := Nat.eqb (fst a) (fst b) && (snd a =? snd b).
(** what a chunk has: a row of a size with a content, or the pointer of a delayed free *)
Inductive data := DRow (size : Z) (v : Z) | DPtr (a : addr).
(** heap.h:19-46 *)
Record chunk := mkchunk { c_prev : addr; c_bucket : Z; c_free : bool; c_last : bool; c_shadow : bool; c_sfree : bool; c_data : data }.
(** heap.h:85-95 and the header.  [h_pages]: the size of each page header; [h_bkt]: list and
    list_count of each bucket *)
Record heap := mkheap { h_mem : addr -> chunk; h_pages : list Z; h_last : option addr; h_bkt : Z -> addr * Z; h_used : Z; h_size : Z }.
Definition mset (m : addr -> chunk) (a : addr) (c : chunk) : addr -> chunk := fun x => if addr_eqb x a then c else m x.
Definition bset (m : Z -> addr * Z) (b : Z) (v : addr * Z) : Z -> addr * Z := fun x => if x =? b then v else m x.
Definition nochunk : chunk := mkchunk (0%nat, 0) 0 false false false false (DRow 0 0).
(** heap.c:99-113 heap_allocate and 36-63 heap_prepare *)
Definition heap_allocate : heap := mkheap (fun _ => nochunk) [] None (fun _ => ((0%nat, 0), 0)) 0 0.

Definition last_size (h : heap) : Z := List.last (h_pages h) 0.
Definition set_last (l : list Z) (v : Z) : list Z := removelast l ++ [v].
(** heap.c:197-255 of heap_add: a chunk of the heap [h], with a new content *)
Definition heap_take (h : heap) (size : Z) (d : data) (shadow sfree : bool) : heap * addr :=
  let b := bucket_of (CHUNK + size) in
  let (head, count) := h_bkt h b in
  if 0 <? count then
    (mkheap (mset (h_mem h) head (mkchunk (0%nat, 0) (c_bucket (h_mem h head)) false (c_last (h_mem h head)) shadow sfree d))
            (h_pages h) (h_last h) (bset (h_bkt h) b (c_prev (h_mem h head), count - 1)) (h_used h) (h_size h), head)
  else
    (* 216-218: the difference is unsigned *)
    let grow := match h_last h with None => true | Some _ => (PAGE - last_size h) mod 4294967296 <? bsize b end in
    let pages := if grow then h_pages h ++ [PAGE_HEADER] else h_pages h in
    let last := if grow then None else h_last h in
    let a := ((length pages - 1)%nat, List.last pages 0) in
    let m := match last with
             | Some l => mset (h_mem h) l (let c := h_mem h l in mkchunk (c_prev c) (c_bucket c) (c_free c) false (c_shadow c) (c_sfree c) (c_data c))
             | None => h_mem h
             end in
    (mkheap (mset m a (mkchunk (0%nat, 0) b false true shadow sfree d)) (set_last pages (snd a + bsize b)) (Some a) (h_bkt h) (h_used h) (h_size h), a).
Definition count_add (h : heap) (b : Z) : heap := mkheap (h_mem h) (h_pages h) (h_last h) (h_bkt h) (h_used h + 1) (h_size h + bsize b).
(** heap.c:292-308 of heap_remove *)
Definition heap_give (h : heap) (a : addr) : heap :=
  let c := h_mem h a in
  let b := c_bucket c in
  let (head, count) := h_bkt h b in
  mkheap (mset (h_mem h) a (mkchunk head b true (c_last c) (c_shadow c) (c_sfree c) (c_data c)))
         (h_pages h) (h_last h) (bset (h_bkt h) b (a, count + 1)) (h_used h - 1) (h_size h - bsize b).

(** a heap with its shadow heap *)
Record hs := mkhs { main : heap; shadow : option heap; shadow_free : bool }.
(** a pointer: is it in the pages of the shadow heap, and where *)
Definition ptr := (bool * addr)%type.
(** heap.c:187-267 heap_add.  The metrics are those of the main heap, also for a chunk of the shadow *)
Definition heap_add (s : hs) (size : Z) (d : data) : hs * ptr :=
  let b := bucket_of (CHUNK + size) in
  match shadow s with
  | None => let (h, a) := heap_take (main s) size d false false in (mkhs (count_add h b) None (shadow_free s), (false, a))
  | Some sh => let (h, a) := heap_take sh size d true false in (mkhs (count_add (main s) b) (Some h) (shadow_free s), (true, a))
  end.
(** heap.c:269-314 heap_remove *)
Definition heap_remove (s : hs) (p : ptr) : res hs :=
  do c <- match p with
          | (false, a) => Ok (h_mem (main s) a)
          | (true, a) => match shadow s with Some sh => Ok (h_mem sh a) | None => UB end
          end;
  let a := snd p in
  if c_shadow c then
    match shadow s with Some sh => Ok (mkhs (main s) (Some (heap_give sh a)) (shadow_free s)) | None => UB end
  else if shadow_free s then
    match shadow s with
    | Some sh => let (h, _) := heap_take sh 8 (DPtr a) true true in Ok (mkhs (main s) (Some (count_add h (bucket_of (CHUNK + 8)))) (shadow_free s))
    | None => UB
    end
  else Ok (mkhs (heap_give (main s) a) (shadow s) (shadow_free s)).
(** heap.c:316-321 heap_snapshot *)
Definition heap_snapshot (s : hs) (sh : option heap) (sfree : bool) : hs := mkhs (main s) sh sfree.

(** heap_iterator.h:26-43 heap_iterator_next_chunk *)
Definition next_chunk (h : heap) (a : addr) : option addr :=
  if negb (c_last (h_mem h a)) then Some (fst a, snd a + bsize (c_bucket (h_mem h a)))
  else if Nat.leb (length (h_pages h)) (S (fst a)) then None else Some (S (fst a), PAGE_HEADER).
(** heap_iterator.h:45-90: the chunks that are not free, from [cur]; [None]: not at the end after
    [fuel] chunks *)
Fixpoint iterate_from (fuel : nat) (h : heap) (cur : option addr) : option (list addr) :=
  match cur with
  | None => Some []
  | Some a =>
    match fuel with
    | O => None
    | S fuel' =>
      match iterate_from fuel' h (next_chunk h a) with
      | Some l => Some (if c_free (h_mem h a) then l else a :: l)
      | None => None
      end
    end
  end.
(** heap_iterator.h:52-65 heap_iterator_open *)
Definition iterate (fuel : nat) (h : heap) : option (list addr) :=
  iterate_from fuel h (match h_last h with None => None | Some _ => Some (0%nat, PAGE_HEADER) end).

(** refresh.c:155-175: the chunks of the shadow heap are copied to the heap (heap_row.h:40-47
    row_copy), the delayed frees are done.  Also returned: where each row of the shadow heap went,
    part_apply puts the new pointer into the indexes *)
Fixpoint apply_loop (s : hs) (sh : heap) (l : list addr) : res (hs * list (addr * addr)) :=
  match l with
  | [] => Ok (s, [])
  | a :: r =>
    let c := h_mem sh a in
    match c_sfree c, c_data c with
    | true, DPtr x => do s' <- heap_remove s (false, x); apply_loop s' sh r
    | false, DRow size v =>
      let (s', p) := heap_add s size (DRow size v) in
      do (s2, moved) <- apply_loop s' sh r; Ok (s2, (a, snd p) :: moved)
    | _, _ => UB
    end
  end.
Definition refresh_apply (fuel : nat) (s : hs) : res (hs * list (addr * addr)) :=
  match shadow s with
  | Some sh => match iterate fuel sh with Some l => apply_loop (heap_snapshot s None false) sh l | None => Err end
  | None => UB
  end.

(** heap_file.c:19-65 heap_create.  The header is read twice, for its checksum and for the write;
    each page is read when it is written, up to its size.  [f_last] is page_header->last of the last
    page, [f_crc] the counters the checksum was made of, the other fields of the header do not change *)
Record hfile := mkfile { f_crc : Z * Z; f_used : Z * Z; f_last : option addr; f_bkt : Z -> addr * Z; f_pages : list (Z * (Z -> chunk)) }.
Definition page_image (h : heap) (i : nat) : Z * (Z -> chunk) :=
  (nth i (h_pages h) 0, fun o => if o <? nth i (h_pages h) 0 then h_mem h (i, o) else nochunk).
(** heap_file.c:67-158 heap_open: [None] is the error of the header checksum *)
Definition heap_open (f : hfile) : option heap :=
  if (fst (f_crc f) =? fst (f_used f)) && (snd (f_crc f) =? snd (f_used f)) then
    Some (mkheap (fun a => match nth_error (f_pages f) (fst a) with Some (_, m) => m (snd a) | None => nochunk end)
                 (map fst (f_pages f)) (f_last f) (f_bkt f) (fst (f_used f)) (snd (f_used f)))
  else None.
(** heap_file.c:19-65 heap_create: [at_crc] and [at_header] are the heaps when the checksum is made
    and when the header is written, [at_page i] the heap when page [i] is written *)
Definition heap_create (at_crc at_header : heap) (at_page : nat -> heap) : hfile :=
  let n := length (h_pages at_header) in
  mkfile (h_used at_crc, h_size at_crc) (h_used at_header, h_size at_header) (h_last (at_page (n - 1)%nat)) (h_bkt at_header)
         (map (fun i => page_image (at_page i) i) (seq 0 n)).
