(** What a user of the heap of a partition relies on: a row that was added and not removed has a
    block of its own with its content. *)
From Verif Require Import Base HeapModel.
Local Open Scope Z_scope.

(** the rows: a pointer, the size and the content *)
Definition rows := list (ptr * (Z * Z)).
Definition ptr_eqb (p q : ptr) : bool := Bool.eqb (fst p) (fst q) && addr_eqb (snd p) (snd q).
Definition drop (p : ptr) (live : rows) : rows := filter (fun e => negb (ptr_eqb (fst e) p)) live.
Fixpoint lookup (a : addr) (moved : list (addr * addr)) : addr :=
  match moved with [] => a | (x, y) :: r => if addr_eqb x a then y else lookup a r end.
Definition relocate (moved : list (addr * addr)) (live : rows) : rows :=
  map (fun e : ptr * (Z * Z) => let '(p, r) := e in (if fst p then (false, lookup (snd p) moved) else p, r)) live.

Inductive op :=
| Add (size v : Z)   (* a row is created *)
| Remove (p : ptr)   (* a row is freed *)
| Begin              (* refresh.c:43-76 of refresh_begin: a snapshot begins *)
| End (fuel : nat).  (* refresh.c:133-180 refresh_apply: it ends *)
Definition step (x : hs * rows) (o : op) : res (hs * rows) :=
  let (s, live) := x in
  match o with
  | Add size v => let (s', p) := heap_add s size (DRow size v) in Ok (s', (p, (size, v)) :: live)
  | Remove p => do s' <- heap_remove s p; Ok (s', drop p live)
  | Begin => Ok (heap_snapshot s (Some heap_allocate) true, live)
  | End fuel => do (s', moved) <- refresh_apply fuel s; Ok (s', relocate moved live)
  end.
(** rows below this size; the others: C23_large_refuted *)
Definition size_ok (size : Z) : Prop := 0 <= size < 516072.
Definition valid (x : hs * rows) (o : op) : Prop :=
  match o with
  | Add size _ => size_ok size
  | Remove p => In p (map fst (snd x))
  | Begin => shadow (fst x) = None
  | End _ => shadow (fst x) <> None
  end.
(** histories in which pointers are used correctly *)
Inductive reach (x : hs * rows) : hs * rows -> Prop :=
| reach_nil : reach x x
| reach_step y o z : reach x y -> valid y o -> step y o = Ok z -> reach x z.
Definition start : hs * rows := (mkhs heap_allocate None false, []).

(** the chunk of a pointer *)
Definition chunk_at (s : hs) (p : ptr) : chunk :=
  h_mem (if fst p then match shadow s with Some sh => sh | None => heap_allocate end else main s) (snd p).
(** the memory of a row: the pages of a heap, and in them the bytes of its chunk header and its data *)
Definition first_byte (p : ptr) : Z := snd (snd p).
Definition end_byte (p : ptr) (size : Z) : Z := snd (snd p) + CHUNK + size.
Definition same_page (p q : ptr) : Prop := fst p = fst q /\ fst (snd p) = fst (snd q).
Definition apart (p : ptr) (n : Z) (q : ptr) (m : Z) : Prop :=
  ~ same_page p q \/ end_byte p n <= first_byte q \/ end_byte q m <= first_byte p.
(** every row is inside of a page of its heap, has its content, and shares no byte with another row *)
Definition rows_safe (s : hs) (live : rows) : Prop :=
  NoDup (map fst live) /\
  (forall p n v, In (p, (n, v)) live ->
     c_data (chunk_at s p) = DRow n v /\ c_free (chunk_at s p) = false /\
     (fst (snd p) < length (h_pages (if fst p then match shadow s with Some sh => sh | None => heap_allocate end else main s)))%nat /\
     PAGE_HEADER <= first_byte p /\ end_byte p n <= PAGE) /\
  (forall p n v q m w, In (p, (n, v)) live -> In (q, (m, w)) live -> p <> q -> apart p n q m).
(** what happens between Begin and End *)
Inductive during (x : hs * rows) : hs * rows -> Prop :=
| during_nil : during x x
| during_step y o z : during x y -> valid y o -> o <> Begin -> (forall fuel, o <> End fuel) -> step y o = Ok z -> during x z.
