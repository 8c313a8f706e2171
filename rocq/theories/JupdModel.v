(** Model of the functions that change JSON values: set() and unset() by path (amelie/vm/value/update.c)
    and the array functions append(), push(), pop(), pop_back(), put(), remove()
    (vm/value/json_array.h, vm/func/fn_json.c), on the stored bytes.  A new value is given as the bytes
    value_encode writes for it (vm/value/json.h:14-88). *)
From Verif Require Import Base JsonModel.

(** ** update.c *)
Definition DOT := 46.
(** isspace in the C locale *)
Definition isspace (c : Z) : bool := (c =? 32) || ((9 <=? c) && (c <=? 13)).
(** update.c:51-55 update_has *)
Definition update_has (path : list Z) : bool := match path with [] => false | _ => true end.
(** update.c:62-70 the loop of update_read *)
Fixpoint read_key (path : list Z) : res (list Z * list Z) :=
  match path with
  | [] => Ok ([], [])
  | c :: p => if c =? DOT then Ok ([], path)
              else if isspace c then Err
              else do (k, r) <- read_key p; Ok (c :: k, r)
  end.
(** update.c:57-76 update_read: the next key and the rest of the path *)
Definition update_read (path : list Z) : res (list Z * list Z) :=
  if update_has path then
    do (k, r) <- read_key path;
    match k with [] => Err | _ => Ok (k, match r with [] => [] | _ :: r' => r' end) end
  else Err.
(** the bytes between two positions *)
Definition between (start pos : list Z) : list Z := firstn (length start - length pos) start.

Section Value.
Variable value : list Z.     (* what value_encode writes *)
(** The state is the position in the JSON, the path and [found]; the result is the written bytes and the
    new state.  Every call and iteration consumes a byte of the JSON, so its length is enough fuel.
    update.c:118-172 update_set_next; [set_fields]: the loop :132-161 and the end :163-171 *)
Fixpoint set_obj (fuel : nat) (path : list Z) (found : bool) (l : list Z) {struct fuel} : res (list Z * (list Z * list Z * bool)) :=
  match fuel with
  | O => UB
  | S f =>
      do (key, path1) <- update_read path;
      do b <- json_is JSON_OBJ l;
      if (b : bool) then
        do l1 <- json_read_marker JSON_OBJ l;
        do (out, st) <- set_fields f key path1 found l1;
        Ok (JSON_OBJ :: out, st)
      else Err
  end
with set_fields (fuel : nat) (key path : list Z) (found : bool) (l : list Z) {struct fuel} : res (list Z * (list Z * list Z * bool)) :=
  match fuel with
  | O => UB
  | S f =>
      do (e, l1) <- json_read_end JSON_OBJ_END l;
      if (e : bool) then
        if found then Ok ([JSON_OBJ_END], (l1, path, found))
        else if update_has path then Err
        else Ok (json_write_raw key ++ value ++ [JSON_OBJ_END], (l1, path, found))
      else
        do (at_, l2) <- json_read_raw l1;
        if negb found && bytes_eqb key at_ then
          if update_has path then
            do (o1, st) <- set_obj f path found l2;
            let '(l3, path', found') := st in
            do (o2, st') <- set_fields f key path' found' l3;
            Ok (json_write_raw at_ ++ o1 ++ o2, st')
          else
            do l3 <- json_skip l2;
            do (o2, st') <- set_fields f key path true l3;
            Ok (json_write_raw at_ ++ value ++ o2, st')
        else
          do l3 <- json_skip l2;
          do (o2, st') <- set_fields f key path found l3;
          Ok (json_write_raw at_ ++ between l2 l3 ++ o2, st')
  end.
(** update.c:174-183 update_set *)
Definition update_set (json path : list Z) : res (list Z) :=
  do (out, _) <- set_obj (length json) path false json; Ok out.
End Value.

(** update.c:78-116 update_unset_next *)
Fixpoint unset_obj (fuel : nat) (path : list Z) (l : list Z) {struct fuel} : res (list Z * (list Z * list Z)) :=
  match fuel with
  | O => UB
  | S f =>
      do (key, path1) <- update_read path;
      do b <- json_is JSON_OBJ l;
      if (b : bool) then
        do l1 <- json_read_marker JSON_OBJ l;
        do (out, st) <- unset_fields f key path1 l1;
        Ok (JSON_OBJ :: out, st)
      else Err
  end
with unset_fields (fuel : nat) (key path : list Z) (l : list Z) {struct fuel} : res (list Z * (list Z * list Z)) :=
  match fuel with
  | O => UB
  | S f =>
      do (e, l1) <- json_read_end JSON_OBJ_END l;
      if (e : bool) then Ok ([JSON_OBJ_END], (l1, path))
      else
        do (at_, l2) <- json_read_raw l1;
        if bytes_eqb key at_ then
          if update_has path then
            do (o1, st) <- unset_obj f path l2;
            let '(l3, path') := st in
            do (o2, st') <- unset_fields f key path' l3;
            Ok (json_write_raw at_ ++ o1 ++ o2, st')
          else
            do l3 <- json_skip l2; unset_fields f key path l3
        else
          do l3 <- json_skip l2;
          do (o2, st') <- unset_fields f key path l3;
          Ok (json_write_raw at_ ++ between l2 l3 ++ o2, st')
  end.
(** update.c:185-194 update_unset *)
Definition update_unset (json path : list Z) : res (list Z) :=
  do (out, _) <- unset_obj (length json) path json; Ok out.

(** ** json_array.h *)
(** json_array.h:29-42 value_array_append; [json] are the json_size bytes of the array *)
Definition value_array_append (json : list Z) (values : list (list Z)) : list Z :=
  firstn (length json - 1) json ++ concat values ++ [JSON_ARRAY_END].
(** json_array.h:44-57 value_array_push *)
Definition value_array_push (json : list Z) (values : list (list Z)) : list Z :=
  JSON_ARRAY :: concat values ++ skipn 1 json.
(** json_array.h:59-71 value_array_pop *)
Definition value_array_pop (json : list Z) : res (list Z) :=
  do pos <- json_read_marker JSON_ARRAY json;
  do e <- json_is JSON_ARRAY_END pos;
  do pos <- (if (e : bool) then Ok pos else json_skip pos);
  Ok (JSON_ARRAY :: pos).
(** json_op.h:160-175 json_array_last: the position of the last item *)
Fixpoint array_last_loop (fuel : nat) (l : list Z) : res (option (list Z)) :=
  match fuel with
  | O => UB
  | S f =>
      do (e, l1) <- json_read_end JSON_ARRAY_END l;
      if (e : bool) then Ok None
      else
        do at_ <- json_skip l1;
        do e <- json_is JSON_ARRAY_END at_;
        if (e : bool) then Ok (Some l1) else array_last_loop f at_
  end.
Definition json_array_last (json : list Z) : res (option (list Z)) :=
  do n <- json_is JSON_NULL json;
  if (n : bool) then Ok None
  else do l <- json_read_marker JSON_ARRAY json; array_last_loop (length json) l.
(** json_array.h:73-84 value_array_pop_back *)
Definition value_array_pop_back (json : list Z) : res (list Z) :=
  do p <- json_array_last json;
  match p with
  | Some pos => Ok (between json pos ++ [JSON_ARRAY_END])
  | None => Ok [JSON_ARRAY; JSON_ARRAY_END]
  end.
(** json_array.h:97-110 the loop of value_array_put *)
Fixpoint put_loop (fuel : nat) (idx i : Z) (value : list Z) (l : list Z) : res (list Z * Z) :=
  match fuel with
  | O => UB
  | S f =>
      do (e, l1) <- json_read_end JSON_ARRAY_END l;
      if (e : bool) then Ok ([], i)
      else
        do l2 <- json_skip l1;
        do (out, n) <- put_loop f idx (i + 1) value l2;
        Ok ((if i =? idx then value else between l1 l2) ++ out, n)
  end.
(** an int64 passed as an int *)
Definition to_int (z : Z) : Z := sx 4 (z mod 2 ^ 32).
(** json_array.h:86-118 value_array_put, fn_json.c:93-108 fn_put: the index is an int *)
Definition value_array_put (json : list Z) (index : Z) (value : list Z) : res (list Z) :=
  let idx := to_int index in
  do l <- json_read_marker JSON_ARRAY json;
  do (out, n) <- put_loop (length json) idx 0 value l;
  if (idx <? 0) || (n <=? idx) then Err else Ok (JSON_ARRAY :: out ++ [JSON_ARRAY_END]).
(** json_array.h:120-141 value_array_remove, fn_json.c:110-124 fn_remove *)
Fixpoint remove_loop (fuel : nat) (idx i : Z) (l : list Z) : res (list Z * Z) :=
  match fuel with
  | O => UB
  | S f =>
      do (e, l1) <- json_read_end JSON_ARRAY_END l;
      if (e : bool) then Ok ([], i)
      else
        do l2 <- json_skip l1;
        do (out, n) <- remove_loop f idx (i + 1) l2;
        Ok ((if i =? idx then [] else between l1 l2) ++ out, n)
  end.
Definition value_array_remove (json : list Z) (index : Z) : res (list Z) :=
  let idx := to_int index in
  do l <- json_read_marker JSON_ARRAY json;
  do (out, n) <- remove_loop (length json) idx 0 l;
  if (idx <? 0) || (n <=? idx) then Err else Ok (JSON_ARRAY :: out ++ [JSON_ARRAY_END]).
