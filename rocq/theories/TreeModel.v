(** Model of the ordered index: amelie/db/index/tree.c, tree.h, tree_iterator.h over the
    red-black tree of RbModel.v.  A page is the list of its rows (keys_count is the
    length, so a page never holds more rows than its array provided size_page bounds it:
    part of the invariant proved).  A page pointer is the rank of the page in the order
    of the red-black tree; a function that adds or removes a page updates the ranks. *)
From Verif Require Import Base RbModel.

Section Tree.
Variable A : Type.                       (* Row* *)
Variable cmp : A -> A -> Z.              (* db/row/compare.h:15-48 compare(self->keys, a, b) *)
Variables size_page size_split : nat.    (* index_tree.c:101 tree_init(&self->tree, 512, 256, ...) *)

(** tree.h:18-39 *)
Record tree := mktree { t_rb : rb (list A); count : Z; count_pages : Z }.
Record pos := mkpos { p_page : nat; p_at : nat }.
Definition pages (t : tree) : list (list A) := inorder (t_rb t).

(* tree.c:17-29 tree_init *)
Definition tree_init : tree := mktree E 0 0.

(* the rank of a node *)
Definition loc_rank (n : rb (list A) * ctx (list A)) : nat :=
  match n with (T _ l _ _, k) => rank k + size l | (E, k) => rank k end%nat.

(* tree.c:75-79 tree_compare: compare(self->keys, page->rows[0], key) *)
Definition tree_compare (key : A) (page : list A) : res Z :=
  match page with [] => UB | m :: _ => Ok (cmp m key) end.

(* tree.c:81-101 tree_find, tree_search_page_for_write: page_ref, page_rel, page *)
Definition search_for_write (t : tree) (key : A) : res ((rb (list A) * ctx (list A)) * Z * nat) :=
  do (ref, rel) <- rb_get (tree_compare key) (t_rb t) [];
  match ref with
  | None => UB                              (* assert( *page_ref != NULL) *)
  | Some n =>
    Ok (n, rel,
        if rel =? 1 then
          match rb_prev n with Some p => loc_rank p | None => loc_rank n end
        else loc_rank n)
  end.
(* tree.c:103-109 tree_search_page *)
Definition page_index (t : tree) (key : A) : res nat :=
  do (x, i) <- search_for_write t key; Ok i.

(* tree.c:111-133 tree_search: binary search; (position, match) *)
Fixpoint search_loop (fuel : nat) (page : list A) (key : A) (min max : Z) : res (Z * bool) :=
  match fuel with
  | O => UB
  | S f =>
    if min <=? max then
      let mid := min + Z.shiftr (max - min) 1 in
      match nth_error page (Z.to_nat mid) with
      | None => UB
      | Some r =>
        let rc := cmp r key in
        if rc <? 0 then search_loop f page key (mid + 1) max
        else if 0 <? rc then search_loop f page key min (mid - 1)
        else Ok (mid, true)
      end
    else Ok (min, false)
  end.
Definition tree_search (page : list A) (key : A) : res (nat * bool) :=
  do (p, m) <- search_loop (S (length page)) page key 0 (Z.of_nat (length page) - 1);
  Ok (Z.to_nat p, m).

(* a dereference of a page pointer *)
Definition get_page (t : tree) (i : nat) : res (list A) :=
  match nth_error (pages t) i with Some p => Ok p | None => UB end.
(* writing the rows of a page in place: the nodes keep their places *)
Definition set_page (t : rb (list A)) (i : nat) (v : list A) : res (rb (list A)) :=
  do (n, k) <- locate t i [];
  match n with E => UB | T c l _ r => Ok (plug (T c l v r) k) end.
Definition set_nth {B} (l : list B) (i : nat) (v : B) : list B := firstn i l ++ v :: skipn (S i) l.
(* a memmove to the right by one and a store *)
Definition insert_nth {B} (l : list B) (i : nat) (v : B) : list B := firstn i l ++ v :: skipn i l.
Definition remove_nth {B} (l : list B) (i : nat) : list B := firstn i l ++ skipn (S i) l.

(* tree.c:135-168 tree_set_into + 170-184 tree_set *)
Definition tree_set (t : tree) (at_ : pos) (key : A) : res (tree * pos) :=
  do page <- get_page t (p_page at_);
  if (length page =? size_page)%nat then
    let l := firstn size_split page in
    let r := skipn size_split page in
    let right := (length l <=? p_at at_)%nat in
    let p := if right then (p_at at_ - length l)%nat else p_at at_ in
    let l' := if right then l else insert_nth l p key in
    let r' := if right then insert_nth r p key else r in
    do rb1 <- set_page (t_rb t) (p_page at_) l';
    match r' with
    | [] => UB
    | m :: _ =>
      let t1 := mktree rb1 (count t + 1) (count_pages t) in
      do (x, _) <- search_for_write t1 m;
      let '(ref, rel) := x in
      do rb2 <- rb_set (Some ref) rel r';
      let n := (if 0 <? rel then loc_rank ref else S (loc_rank ref)) in
      Ok (mktree rb2 (count t + 1) (count_pages t + 1),
          mkpos (if right then n else if (n <=? p_page at_)%nat then S (p_page at_) else p_page at_) p)
    end
  else
    do rb1 <- set_page (t_rb t) (p_page at_) (insert_nth page (p_at at_) key);
    Ok (mktree rb1 (count t + 1) (count_pages t), at_).

(* tree.c:186-215 tree_upsert: true = the key exists *)
Definition tree_upsert (t : tree) (key : A) : res (tree * pos * bool) :=
  if count_pages t =? 0 then
    do rb1 <- rb_set None 0 [key];
    Ok (mktree rb1 (count t + 1) (count_pages t + 1), mkpos 0 0, false)
  else
    do i <- page_index t key;
    do page <- get_page t i;
    do (p, exists_) <- tree_search page key;
    if (exists_ : bool) then Ok (t, mkpos i p, true)
    else do (t', at_) <- tree_set t (mkpos i p) key; Ok (t', at_, false).

(* rows[page_pos] = key, returning the old pointer *)
Definition put_at (t : tree) (at_ : pos) (key : A) : res (tree * A) :=
  do page <- get_page t (p_page at_);
  match nth_error page (p_at at_) with
  | None => UB
  | Some prev =>
    do rb1 <- set_page (t_rb t) (p_page at_) (set_nth page (p_at at_) key);
    Ok (mktree rb1 (count t) (count_pages t), prev)
  end.

(* tree.c:217-226 tree_replace *)
Definition tree_replace (t : tree) (key : A) : res (tree * option A) :=
  do (x, exists_) <- tree_upsert t key;
  let '(t', at_) := x in
  if (exists_ : bool) then do (t2, prev) <- put_at t' at_ key; Ok (t2, Some prev)
  else Ok (t', None).

(* rbtree_next of the page of rank i, as a rank *)
Definition page_next (t : rb (list A)) (i : nat) : res (option nat) :=
  do n <- locate t i [];
  Ok (match rb_next n with Some m => Some (loc_rank m) | None => None end).

(* tree.c:239-269 tree_delete (with 228-237 tree_delete_next): the position of the next
   row, if any *)
Definition tree_delete (t : tree) (at_ : pos) : res (tree * option pos) :=
  do page <- get_page t (p_page at_);
  match nth_error page (p_at at_) with
  | None => UB
  | Some _ =>
    let page' := remove_nth page (p_at at_) in
    do next <- page_next (t_rb t) (p_page at_);
    if (length page' =? 0)%nat then
      do n <- locate (t_rb t) (p_page at_) [];
      do rb1 <- rb_remove n;
      Ok (mktree rb1 (count t - 1) (count_pages t - 1),
          match next with
          | Some i => Some (mkpos (if (p_page at_ <? i)%nat then pred i else i) 0)  (* one page less *)
          | None => None
          end)
    else
      do rb1 <- set_page (t_rb t) (p_page at_) page';
      Ok (mktree rb1 (count t - 1) (count_pages t),
          if (p_at at_ <? length page')%nat then Some at_
          else match next with Some i => Some (mkpos i 0) | None => None end)
  end.

(* tree.c:271-290 tree_delete_by *)
Definition tree_delete_by (t : tree) (key : A) : res (tree * option A) :=
  if count_pages t =? 0 then Ok (t, None)
  else
    do i <- page_index t key;
    do page <- get_page t i;
    do (p, m) <- tree_search page key;
    if (m : bool) then
      match nth_error page p with
      | None => UB
      | Some prev => do (t', _) <- tree_delete t (mkpos i p); Ok (t', Some prev)
      end
    else Ok (t, None).

(* tree.c:292-313 tree_get; key = None is the NULL key; None: no position is set *)
Definition tree_get (t : tree) (key : option A) : res (option pos * bool) :=
  if count_pages t =? 0 then Ok (None, false)
  else match key with
  | None => Ok (match rb_min (t_rb t) [] with Some n => Some (mkpos (loc_rank n) 0) | None => None end, false)
  | Some k =>
    do i <- page_index t k;
    do page <- get_page t i;
    do (p, m) <- tree_search page k;
    Ok (Some (mkpos i p), m)
  end.

(** ** iterator, tree_iterator.h *)
(* tree_iterator.h:16-23: current row, position (page = NULL is None), repositioned *)
Record iter := mkiter { i_current : option A; i_pos : option pos; i_repos : bool }.

Definition row_at (t : tree) (at_ : pos) : res A :=
  do page <- get_page t (p_page at_);
  match nth_error page (p_at at_) with Some r => Ok r | None => UB end.

(* tree_iterator.h:25-47 tree_iterator_open *)
Definition iter_open (t : tree) (key : option A) : res (iter * bool) :=
  if count t =? 0 then Ok (mkiter None None false, false)
  else
    do (p, m) <- tree_get t key;
    match p with
    | None => UB
    | Some at_ =>
      do page <- get_page t (p_page at_);
      if (length page <=? p_at at_)%nat then Ok (mkiter None None false, false)
      else do r <- row_at t at_; Ok (mkiter (Some r) (Some at_) false, m)
    end.

(* tree_iterator.h:70-108 tree_iterator_next *)
Definition iter_next (t : tree) (it : iter) : res iter :=
  match i_current it with
  | None => Ok it
  | Some _ =>
    if i_repos it then
      match i_pos it with
      | Some at_ => do r <- row_at t at_; Ok (mkiter (Some r) (Some at_) false)
      | None => Ok (mkiter None None false)
      end
    else
      match i_pos it with
      | None => UB
      | Some at_ =>
        do page <- get_page t (p_page at_);
        if (S (p_at at_) <? length page)%nat then
          let at' := mkpos (p_page at_) (S (p_at at_)) in
          do r <- row_at t at'; Ok (mkiter (Some r) (Some at') false)
        else
          do next <- page_next (t_rb t) (p_page at_);
          match next with
          | Some i => let at' := mkpos i 0 in do r <- row_at t at'; Ok (mkiter (Some r) (Some at') false)
          | None => Ok (mkiter None None false)
          end
      end
  end.

(* tree_iterator.h:110-123 tree_iterator_replace *)
Definition iter_replace (t : tree) (it : iter) (key : A) : res (tree * iter * A) :=
  match i_current it, i_pos it with
  | Some _, Some at_ => do (t', prev) <- put_at t at_ key; Ok (t', mkiter (Some key) (Some at_) (i_repos it), prev)
  | _, _ => UB
  end.

(* tree_iterator.h:125-143 tree_iterator_delete *)
Definition iter_delete (t : tree) (it : iter) : res (tree * iter * A) :=
  match i_pos it with
  | None => UB
  | Some at_ =>
    do prev <- row_at t at_;
    do (t', p) <- tree_delete t at_;
    if i_repos it then UB                  (* assert(! self->repositioned) *)
    else Ok (t', mkiter (Some prev) p true, prev)
  end.

(** the rows visited by a scan: open, then at/next while has *)
Fixpoint walk (fuel : nat) (t : tree) (it : iter) : res (list A) :=
  match i_current it with
  | None => Ok []
  | Some r =>
    match fuel with
    | O => UB
    | S f => do it' <- iter_next t it; do l <- walk f t it'; Ok (r :: l)
    end
  end.
Definition scan (t : tree) (key : option A) : res (list A) :=
  do (it, _) <- iter_open t key; walk (Z.to_nat (count t)) t it.

(** DELETE ... WHERE [keep r = false] over an index scan: vm/vm/command.c:523 cdelete -> db/part/part_op.c:205 part_delete -> index_delete at each
    row of the cursor that satisfies the condition; result: tree and the rows visited *)
Fixpoint delete_walk (fuel : nat) (del : A -> bool) (t : tree) (it : iter) : res (tree * list A) :=
  match i_current it with
  | None => Ok (t, [])
  | Some r =>
    match fuel with
    | O => UB
    | S f =>
      if del r then
        do (x, _) <- iter_delete t it;
        let '(t', it1) := x in
        do it2 <- iter_next t' it1; do (y, l) <- delete_walk f del t' it2; Ok (y, r :: l)
      else
        do it2 <- iter_next t it; do (y, l) <- delete_walk f del t it2; Ok (y, r :: l)
    end
  end.
Definition delete_scan (t : tree) (del : A -> bool) : res (tree * list A) :=
  do (it, _) <- iter_open t None; delete_walk (Z.to_nat (count t)) del t it.
End Tree.
