(** Model of the aggregates of vm/set/agg.c over integers, with GROUP BY, DISTINCT
    aggregates and the merge of the sets computed by the partitions.

    An endless probe of the hash table and an access outside of the rows of a set are [UB].
    Aggregates over doubles and lambdas are not modelled. *)
From Verif Require Import Base JsonModel ValueModel HashModel SetModel.

Inductive agg_type := ACount | AMin | AMax | ASum | AAvg.
Record agg := mkagg { atype : agg_type; adistinct : bool }.
(** the column of a row that holds the state of an aggregate *)
Inductive state := SNull | SInt (z : Z) | SAvg (sum count : Z).

(** int64_t addition.  Signed overflow is undefined in C; the model is the two's
    complement wrap of the code that compilers emit for [a += b] *)
Definition wrap64 (z : Z) : Z := (z + 2 ^ 63) mod 2 ^ 64 - 2 ^ 63.

(** agg.c:20-128 agg_compute; lib/avg.h:25-36 *)
Definition agg_compute (t : agg_type) (src : state) (v : Z) : state :=
  match t with
  | ACount => match src with SInt c => SInt (wrap64 (c + 1)) | _ => SInt 1 end
  | AMin => match src with SInt c => if v <? c then SInt v else SInt c | _ => SInt v end
  | AMax => match src with SInt c => if c <? v then SInt v else SInt c | _ => SInt v end
  | ASum => match src with SInt c => SInt (wrap64 (c + v)) | _ => SInt v end
  | AAvg =>
    let '(s, c) := match src with SAvg s c => (s, c) | _ => (0, 0) end in
    SAvg (wrap64 (s + v)) ((c + 1) mod 2 ^ 64)
  end.
(** agg.c:175-225 agg_merge (the state of b is moved); avg_add_int takes the count as an
    [int]: it is truncated to 32 bits *)
Definition agg_merge (t : agg_type) (a b : state) : state :=
  match b, a with
  | SNull, _ => a
  | _, SNull => b
  | _, _ =>
    match t, a, b with
    | ACount, SInt x, SInt y | ASum, SInt x, SInt y => SInt (wrap64 (x + y))
    | AMin, SInt x, SInt y => if y <? x then SInt y else SInt x
    | AMax, SInt x, SInt y => if x <? y then SInt y else SInt x
    | AAvg, SAvg s c, SAvg s' c' => SAvg (wrap64 (s + s')) ((c + sx 4 (c' mod 2 ^ 32)) mod 2 ^ 64)
    | _, _, _ => a
    end
  end.
(** lib/avg.h:45-49 avg_int: int64_t / uint64_t is an unsigned division, the result is
    converted to int64_t *)
Definition avg_int (sum count : Z) : res Z :=
  if count =? 0 then UB else Ok (wrap64 ((sum mod 2 ^ 64) / count)).

Section Agg.
Variable mag : Z -> Z -> Z.
Notation key := (list value).
Notation eqb := (store_compare_keys mag).
Definition mset := gset key (list state).
Definition dset := gset key unit.

Definition lift {A} (o : option A) : res A := match o with Some a => Ok a | None => UB end.
(** the integer of a value that is not NULL *)
Definition int_of (v : value) : res Z := match v with VInt z => Ok z | _ => UB end.
Fixpoint upd_col (l : list state) (col : nat) (f : state -> state) : list state :=
  match l, col with
  | [], _ => []
  | x :: r, O => f x :: r
  | x :: r, S c => x :: upd_col r c f
  end.

(** agg.c:130-173 agg_write *)
Fixpoint agg_write (aggs : list agg) (vals : list value) (col : nat) (m : mset) (d : dset) (r : nat)
  : res (mset * dset) :=
  match aggs, vals with
  | a :: aggs', VNull :: vals' => agg_write aggs' vals' (S col) m d r
  | a :: aggs', v :: vals' =>
    do z <- int_of v;
    if adistinct a then
      do k <- lift (option_map fst (nth_error (srows m) r));
      do (_, exists_, d') <- lift (set_upsert eqb keys_hash tt d (k ++ [v; VInt (Z.of_nat col)]) 0);
      if exists_ : bool then agg_write aggs' vals' (S col) m d' r
      else agg_write aggs' vals' (S col) (set_update m r (fun l => upd_col l col (fun s => agg_compute (atype a) s z))) d' r
    else
      agg_write aggs' vals' (S col) (set_update m r (fun l => upd_col l col (fun s => agg_compute (atype a) s z))) d r
  | _, _ => Ok (m, d)
  end.
(** vm.c:1542-1560 cset_get, cset_agg: one row of the scan of a partition *)
Definition new_row (aggs : list agg) : list state := map (fun _ => SNull) aggs.
Definition agg_row (aggs : list agg) (md : mset * dset) (row : key * list value) : res (mset * dset) :=
  do (r, _, m) <- lift (set_upsert eqb keys_hash (new_row aggs) (fst md) (fst row) 0);
  agg_write aggs (snd row) 0 m (snd md) r.
(** emit_select.c:275-310 cmd_scan_aggs on one partition *)
Fixpoint agg_scan (aggs : list agg) (md : mset * dset) (rows : list (key * list value)) : res (mset * dset) :=
  match rows with
  | [] => Ok md
  | row :: rows' => do md' <- agg_row aggs md row; agg_scan aggs md' rows'
  end.
Definition agg_partition (aggs : list agg) (rows : list (key * list value)) : res (mset * dset) :=
  agg_scan aggs (set_empty, set_empty) rows.

(** agg.c:247-252 *)
Fixpoint merge_cols (aggs : list agg) (a b : list state) : list state :=
  match aggs, a, b with
  | g :: aggs', x :: a', y :: b' => (if adistinct g then x else agg_merge (atype g) x y) :: merge_cols aggs' a' b'
  | _, _, _ => a
  end.
(** agg.c:227-258 agg_merge_set: the slots of the table in order *)
Fixpoint merge_slots (aggs : list agg) (m with_ : mset) (slots : list slot) : res mset :=
  match slots with
  | [] => Ok m
  | None :: rest => merge_slots aggs m with_ rest
  | Some (h, row) :: rest =>
    do (k, st) <- lift (nth_error (srows with_) row);
    do (r, _, m') <- lift (set_upsert eqb keys_hash (new_row aggs) m k h);
    merge_slots aggs (set_update m' r (fun l => merge_cols aggs l st)) with_ rest
  end.
Definition agg_merge_set (aggs : list agg) (m with_ : mset) : res mset := merge_slots aggs m with_ (stab with_).

(** agg.c:301-303: value_free of [n] values from the first value of row [row].  A row of the
    distinct set is the column row_pos and the keys, [w] values in total.  The loop uses
    the row size of the other set: it can reach the next rows (a freed value is NULL) and
    the memory after the last one *)
Definition free_values (rows : list key) (w row n : nat) : res (list key) :=
  if (length rows * w <? row * w + n)%nat then UB
  else Ok (map (fun '(i, k) =>
         map (fun '(j, v) => let p := (i * w + 1 + j)%nat in
                             if ((row * w <=? p) && (p <? row * w + n))%nat then VNull else v)
             (combine (seq 0 (length k)) k))
         (combine (seq 0 (length rows)) rows)).

(** agg.c:260-305 agg_merge_set_distinct; [nkeys] is the number of GROUP BY keys, [wrows]
    the keys of the rows of distinct_with *)
Fixpoint merge_distinct (aggs : list agg) (nkeys : nat) (m : mset) (d : dset) (wrows : list key) (slots : list slot)
  : res (mset * dset) :=
  match slots with
  | [] => Ok (m, d)
  | None :: rest => merge_distinct aggs nkeys m d wrows rest
  | Some (h, row) :: rest =>
    do k <- lift (nth_error wrows row);
    do (_, exists_, d') <- lift (set_upsert eqb keys_hash tt d k h);
    do m' <-
      (if exists_ : bool then Ok m else
       do (r, _, m1) <- lift (set_upsert eqb keys_hash (new_row aggs) m (firstn nkeys k) 0);
       match nth_error k (nkeys + 1), nth_error k nkeys with
       | Some (VInt col), Some e =>
         do z <- int_of e;
         match nth_error aggs (Z.to_nat col) with
         | Some a => Ok (set_update m1 r (fun l => upd_col l (Z.to_nat col) (fun s => agg_compute (atype a) s z)))
         | None => UB
         end
       | _, _ => UB
       end);
    do wrows' <- free_values wrows (1 + (nkeys + 2)) row (length aggs + nkeys);
    merge_distinct aggs nkeys m' d' wrows' rest
  end.
(** agg.c:307-340 agg_merge_sets: all into the first *)
Fixpoint merge_all (aggs : list agg) (nkeys : nat) (md : mset * dset) (rest : list (mset * dset)) : res (mset * dset) :=
  match rest with
  | [] => Ok md
  | (wm, wd) :: rest' =>
    if Nat.eqb (length (srows wm)) 0 then merge_all aggs nkeys md rest'
    else
      do m <- agg_merge_set aggs (fst md) wm;
      do md' <- (if existsb adistinct aggs then merge_distinct aggs nkeys m (snd md) (map fst (srows wd)) (stab wd)
                 else Ok (m, snd md));
      merge_all aggs nkeys md' rest'
  end.
Definition agg_merge_sets (aggs : list agg) (nkeys : nat) (l : list (mset * dset)) : res (mset * dset) :=
  match l with [] => Ok (set_empty, set_empty) | md :: rest => merge_all aggs nkeys md rest end.
(** a distributed SELECT with aggregates: every partition scans its rows, the results
    are merged *)
Fixpoint scan_all (aggs : list agg) (parts : list (list (key * list value))) : res (list (mset * dset)) :=
  match parts with
  | [] => Ok []
  | p :: rest => do md <- agg_partition aggs p; do l <- scan_all aggs rest; Ok (md :: l)
  end.
Definition agg_select (aggs : list agg) (nkeys : nat) (parts : list (list (key * list value))) : res (list (key * list state)) :=
  do l <- scan_all aggs parts;
  do md <- agg_merge_sets aggs nkeys l;
  Ok (srows (fst md)).
End Agg.
