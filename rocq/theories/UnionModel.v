(** Model of the combination of ordered results: amelie/vm/set/union_iterator.h,
    amelie/vm/set/union.c, and of the ordered scan of several partitions:
    amelie/db/index/index_tree_merge.h.

    An input iterator (set_iterator.h, a nested union, or a tree iterator) is modelled
    by the rows it has still to return, its current row first.  [cmp] is
    store_compare() / compare(). *)
From Verif Require Import Base.

Section Union.
Context {A : Type} (cmp : A -> A -> Z).

(** union_iterator.h:18-27: [uits] the inputs, [ucur] = current_it *)
Record ustate := mkust { uits : list (list A); ucur : option nat }.

Fixpoint advance (l : list (list A)) (i : nat) : list (list A) :=
  match l, i with
  | [], _ => []
  | x :: r, O => tl x :: r
  | x :: r, S i' => x :: advance r i'
  end.
(* union_iterator.h:39-43, 66-70; index_tree_merge.h:33-37 *)
Definition advance_current (s : ustate) : list (list A) :=
  match ucur s with Some i => advance (uits s) i | None => uits s end.

(** union_iterator.h:45-56: the first input that has a row *)
Fixpoint pick_first (l : list (list A)) (pos : nat) : option (nat * A) :=
  match l with
  | [] => None
  | [] :: r => pick_first r (S pos)
  | (x :: _) :: _ => Some (pos, x)
  end.
(** union_iterator.h:35-60 union_iterator_step_all *)
Definition step_all (s : ustate) : ustate * option A :=
  let l := advance_current s in
  match pick_first l 0 with
  | Some (i, x) => (mkust l (Some i), Some x)
  | None => (mkust l None, None)
  end.

(** union_iterator.h:72-99, index_tree_merge.h:40-67: [switch (rc)] has only the cases
    0, 1 and -1; the row replaces the minimum only in case 1 *)
Fixpoint pick_min (l : list (list A)) (pos : nat) (min : option (nat * A)) : option (nat * A) :=
  match l with
  | [] => min
  | [] :: r => pick_min r (S pos) min
  | (x :: _) :: r =>
    match min with
    | None => pick_min r (S pos) (Some (pos, x))
    | Some (_, m) => pick_min r (S pos) (if cmp m x =? 1 then Some (pos, x) else min)
    end
  end.
(** union_iterator.h:62-103 union_iterator_step; index_tree_merge.h:30-70
    index_tree_merge_step *)
Definition step (s : ustate) : ustate * option A :=
  let l := advance_current s in
  match pick_min l 0 None with
  | Some (i, x) => (mkust l (Some i), Some x)
  | None => (mkust l None, None)
  end.

(** union_iterator.h:116-124: skip the rows equal to [first]; the loop ends since each
    turn takes a row, [fuel] >= number of rows left *)
Fixpoint skip_equal (fuel : nat) (s : ustate) (first : A) : ustate :=
  match fuel with
  | O => s
  | S f =>
    match step s with
    | (s', None) => s'
    | (s', Some next) => if cmp first next =? 0 then skip_equal f s' first else s'
    end
  end.
Definition total (l : list (list A)) : nat := length (concat l).
(** union_iterator.h:105-126 union_iterator_step_distinct *)
Definition step_distinct (s : ustate) : ustate * option A :=
  let '(s1, first) := match ucur s with
                      | Some i => (s, hd_error (nth i (uits s) []))
                      | None => step s
                      end in
  match first with
  | None => (s1, None)
  | Some x => (skip_equal (S (total (uits s1))) s1 x, Some x)
  end.

(** union.h:16-23; UNION_JOIN and UNION_EXCEPT are never created by the compiler *)
Inductive utype := UALL | UORDERED | UDISTINCT.
Definition ustep (t : utype) : ustate -> ustate * option A :=
  match t with UALL => step_all | UORDERED => step | UDISTINCT => step_distinct end.

Definition INT64_MAX : Z := 9223372036854775807.

(** an open union iterator: [ilimit] = self->limit, [icur] = it.current *)
Record uiter := mkit { ist : ustate; ilimit : Z; icur : option A }.

(** union_iterator.h:256-271 union_iterator_next *)
Definition unext (t : utype) (it : uiter) : uiter :=
  if ilimit it <=? 0 then mkit (mkust (uits (ist it)) None) (ilimit it - 1) None
  else let '(s', x) := ustep t (ist it) in mkit s' (ilimit it - 1) x.

(* union_iterator.h:315-316 *)
Fixpoint skip_offset (t : utype) (offset : nat) (it : uiter) : uiter :=
  match offset with
  | O => it
  | S o => match icur it with
           | None => it
           | Some _ => skip_offset t o (unext t it)
           end
  end.
(** union_iterator.h:287-321 union_iterator_open *)
Definition uopen (t : utype) (l : list (list A)) (limit : Z) (offset : nat) : uiter :=
  let it := mkit (mkust l None) INT64_MAX None in
  match l with
  | [] => it
  | _ =>
    match offset with
    | O => unext t (mkit (ist it) limit None)
    | _ =>
      let it1 := skip_offset t offset (unext t it) in
      let lim := limit - 1 in
      mkit (ist it1) lim (if lim <? 0 then None else icur it1)
    end
  end.

(** the user of the iterator: while (current) { use current; next } *)
Fixpoint drain (t : utype) (fuel : nat) (it : uiter) : list A :=
  match fuel with
  | O => []
  | S f => match icur it with
           | None => []
           | Some x => x :: drain t f (unext t it)
           end
  end.
Definition union_rows (t : utype) (l : list (list A)) (limit : Z) (offset : nat) : list A :=
  drain t (S (total l)) (uopen t l limit offset).

(** index_tree_merge.h:72-108: open, then next until there is no current row *)
Fixpoint tree_merge_loop (fuel : nat) (s : ustate) : list A :=
  match fuel with
  | O => []
  | S f => match step s with
           | (_, None) => []
           | (s', Some x) => x :: tree_merge_loop f s'
           end
  end.
Definition tree_merge (l : list (list A)) : list A := tree_merge_loop (S (total l)) (mkust l None).
End Union.
