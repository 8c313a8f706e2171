(** Model of SELECT with WHERE, DISTINCT, ORDER BY, LIMIT and OFFSET: the plan,
    the code emitted for the partitions and for the session, its execution.
    /repo/amelie/compiler/plan/plan.c, plan_pushdown.c, plan.h,
    compiler/compiler/emit_select.c, scan.c, compiler/parser/parse_select.c,
    parse_order.h, vm/vm/vm.c, vm/vm/command.c, vm/set/set.c, union.c,
    vm/value/compare.h.

    Simplifications: one target (of a join, its combined rows); a cursor is the
    list of the rows it has still to return (which rows an index finds, in its
    order, is C75, C01 and C05); WHERE and the expressions are one instruction
    and have no errors; GROUP BY is not here (its last stage is the plan of this
    file over the groups).  qsort_r is a parameter; the union iterator is
    UnionModel.v. *)
From Verif Require Import Base UnionModel.

Section Sel.
Context {V : Type} (vnull : V) (vcmp : V -> V -> Z).
Context (qsort : (list V -> list V -> Z) -> list (list V) -> list (list V)).

Definition row := list V.

(** a name of a column (KNAME) or any other expression *)
Inductive expr := ECol (i : nat) | EFun (f : row -> V).
Definition ev (r : row) (e : expr) : V := match e with ECol i => nth i r vnull | EFun f => f r end.

(** AstSelect (parse_select.h:20-60) *)
Record query := mkq
  { q_ret : list expr; q_distinct : bool; q_where : option (row -> bool);
    q_orderby : list (expr * bool); q_limit : option Z; q_offset : option Z }.

(** parse_select_resolve (parse_select.c:423-431): DISTINCT orders by the
    expressions; ORDER BY and DISTINCT cannot be combined (parse_select.c:213) *)
Definition order_by (q : query) : list (expr * bool) :=
  if q_distinct q then map (fun e => (e, true)) (q_ret q) else q_orderby q.

(** the target: index type, its key columns, whether it is a single table *)
Record target := mkt { t_tree : bool; t_keys : list nat; t_table : bool }.

(** ast_order_list_match_index (parse_order.h:41-84) *)
Fixpoint match_keys (l : list (expr * bool)) (keys : list nat) : bool :=
  match l, keys with
  | [], [] => true
  | (ECol i, true) :: l', k :: keys' => Nat.eqb i k && match_keys l' keys'
  | _, _ => false
  end.
Definition match_index (q : query) (t : target) : bool :=
  Nat.eqb (length (t_keys t)) (length (order_by q)) && match_keys (order_by q) (t_keys t).

(** ** plan (plan.h) *)
(** LIMIT of a scan: a number, or the sum limit + offset (plan_pushdown.c:108-119) *)
Inductive lim := LInt (l : Z) | LSum (l o : Z).
Inductive cmd :=
| CmdScan (ordered : bool) (limit : option lim) (offset : option Z)
| CmdSort
| CmdUnion
| CmdRecv (ordered : bool).

Definition is_some {A} (o : option A) : bool := match o with Some _ => true | None => false end.
Definition has_order (q : query) : bool := match order_by q with [] => false | _ => true end.

(** plan_order_by (plan.c:87-110) *)
Definition plan_order_by (q : query) : list cmd :=
  [CmdScan true None None; CmdSort] ++
  (if negb (q_distinct q) && negb (is_some (q_limit q)) && negb (is_some (q_offset q)) then [] else [CmdUnion]).

(** plan_scan (plan.c:112-124) *)
Definition plan_scan (q : query) : list cmd :=
  [CmdScan false (option_map LInt (q_limit q)) (q_offset q)].

(** plan_main (plan.c:126-180) *)
Definition plan_main (q : query) (t : target) : list cmd :=
  if has_order q then
    if t_table t && (t_tree t && match_index q t) then plan_scan q else plan_order_by q
  else plan_scan q.

(** plan_pushdown.c:103-119, 137-150 *)
Definition push_limit (q : query) : option lim :=
  match q_limit q, q_offset q with
  | Some l, Some o => Some (LSum l o)
  | Some l, None => Some (LInt l)
  | None, _ => None
  end.

(** plan_pushdown (plan_pushdown.c:84-211): the commands of a partition and of
    the session *)
Definition plan_pushdown (q : query) (t : target) : list cmd * list cmd :=
  if has_order q then
    if t_table t && (t_tree t && match_index q t)
    then ([CmdScan true (push_limit q) None], [CmdRecv true])
    else ([CmdScan true None None; CmdSort], [CmdRecv true])
  else ([CmdScan false (push_limit q) None], [CmdRecv false]).

(** ** code *)
Inductive op :=
| OSet (cols keys : nat) (order : list bool)   (* CSET, CSET_ORDERED *)
| OLimit (l : lim)                             (* the register of LIMIT *)
| OOffset (o : Z)
| OOpen (eof : nat)                            (* CTABLE_OPEN*, CSTORE_OPEN *)
| OJntr (a : nat) (w : row -> bool)            (* WHERE; CJNTR *)
| OJgted (a : nat)                             (* CJGTED *)
| OJltd (a : nat)                              (* CJLTD *)
| OPush (e : expr)
| OSetAdd                                      (* CSET_ADD *)
| ONext (a : nat)                              (* CTABLE_NEXT, CSTORE_NEXT *)
| OFree
| OSort                                        (* CSET_SORT *)
| OUnion (t : utype)                           (* CUNION *)
| OUnionLimit (l : Z)
| OUnionOffset (o : Z)
| OUnionAdd                                    (* CUNION_ADD *)
| ORecv                                        (* CRECV *)
| ORet.

(** scan (scan.c:333-381), scan_table/scan_expr, scan_on_match (scan.c:65-105) and
    on_match (emit_select.c:22-43), the set of cmd_scan (emit_select.c:252-282).
    [base] is the position of the first instruction. *)
Definition scan_head (q : query) (ordered : bool) (limit : option lim) (offset : option Z) : list op :=
  [if ordered then OSet (length (q_ret q)) (length (order_by q)) (map snd (order_by q))
   else OSet (length (q_ret q)) 0 []] ++
  match limit with Some l => [OLimit l] | None => [] end ++
  match offset with Some o => [OOffset o] | None => [] end.

Definition scan_pushes (q : query) : list op :=
  map OPush (q_ret q) ++ map (fun '(e, _) => OPush e) (order_by q) ++ [OSetAdd].

Definition scan_body (q : query) (limit : option lim) (offset : option Z) (next eof : nat) : list op :=
  match q_where q with Some w => [OJntr next w] | None => [] end ++
  match offset with Some _ => [OJgted next] | None => [] end ++
  match limit with Some _ => [OJltd eof] | None => [] end ++
  scan_pushes q.

Definition emit_scan (base : nat) (q : query) (ordered : bool) (limit : option lim) (offset : option Z) : list op :=
  let head := scan_head q ordered limit offset in
  let where_ := S (base + length head) in
  let next := (where_ + length (scan_body q limit offset 0 0))%nat in
  let eof := S next in
  head ++ [OOpen eof] ++ scan_body q limit offset next eof ++ [ONext where_; OFree].

(** limit and offset of the union (emit_select.c:365-385, 417-436) *)
Definition union_window (q : query) : list op :=
  match q_limit q with Some l => [OUnionLimit l] | None => [] end ++
  match q_offset q with Some o => [OUnionOffset o] | None => [] end.

Definition emit_cmd (base : nat) (q : query) (c : cmd) : list op :=
  match c with
  | CmdScan ordered limit offset => emit_scan base q ordered limit offset
  | CmdSort => [OSort]
  (* cmd_union (emit_select.c:352-392) *)
  | CmdUnion => [OUnion (if q_distinct q then UDISTINCT else UORDERED)] ++ union_window q ++ [OUnionAdd]
  (* cmd_recv (emit_select.c:405-443) *)
  | CmdRecv ordered =>
    [OUnion (if ordered then (if q_distinct q then UDISTINCT else UORDERED) else UALL)] ++ union_window q ++ [ORecv]
  end.

(** emit_plan (emit_select.c:475-489) *)
Fixpoint emit_plan (base : nat) (q : query) (l : list cmd) : list op :=
  match l with
  | [] => []
  | c :: l' => emit_cmd base q c ++ emit_plan (base + length (emit_cmd base q c)) q l'
  end.
Definition program (q : query) (l : list cmd) : list op := emit_plan 0 q l ++ [ORet].

(** ** execution *)
(** store_compare (compare.h:87-98): the keys are behind the columns *)
Fixpoint keys_cmp (order : list bool) (a b : list V) : Z :=
  match order with
  | [] => 0
  | asc :: order' =>
    let rc := vcmp (hd vnull a) (hd vnull b) in
    if rc =? 0 then keys_cmp order' (tl a) (tl b) else if asc then rc else - rc
  end.
Definition store_compare (cols : nat) (order : list bool) (a b : list V) : Z :=
  keys_cmp order (skipn cols a) (skipn cols b).

(** a set: columns, keys, keys_order, rows in the order of its index *)
Record store := mkstore { st_cols : nat; st_keys : nat; st_order : list bool; st_rows : list (list V) }.
(** a union: type, limit, offset, inputs (union.c:36-72) *)
Record union := mkunion { u_type : utype; u_limit : Z; u_offset : Z; u_inputs : list store }.

Record st := mkst
  { s_pc : nat; s_stack : list V; s_limit : Z; s_offset : Z; s_cursor : list row;
    s_set : store; s_union : option union }.

(** the rows a union returns; its configuration is that of the first input *)
Definition union_store (u : union) : store :=
  match u_inputs u with
  | [] => mkstore 0 0 [] []
  | s :: _ => mkstore (st_cols s) (st_keys s) (st_order s)
                (union_rows (store_compare (st_cols s) (st_order s)) (u_type u) (map st_rows (u_inputs u))
                            (u_limit u) (Z.to_nat (u_offset u)))
  end.
Definition result (x : st) : store := match s_union x with Some u => union_store u | None => s_set x end.

(** CADD of two ints (C38): an error if it overflows *)
Definition lim_value (l : lim) : res Z :=
  match l with
  | LInt l => Ok l
  | LSum l o => if INT64_MAX <? l + o then Err else Ok (l + o)
  end.

(** one instruction; [src] is what the scan reads, [replies] are the results of
    the partitions; None is the end *)
Definition step (src : list row) (replies : list store) (code : list op) (x : st) : res (option st) :=
  let n := S (s_pc x) in
  let 'mkst pc stack limit offset cursor set uni := x in
  match nth_error code pc with
  | None => UB
  | Some (OSet c k o) => Ok (Some (mkst n stack limit offset cursor (mkstore c k o []) uni))
  | Some (OLimit l) => do v <- lim_value l; Ok (Some (mkst n stack v offset cursor set uni))
  | Some (OOffset o) => Ok (Some (mkst n stack limit o cursor set uni))
  | Some (OOpen eof) => Ok (Some (mkst (match src with [] => eof | _ => n end) stack limit offset src set uni))
  | Some (OJntr a w) =>
    match cursor with
    | [] => UB
    | r :: _ => Ok (Some (mkst (if w r then n else a) stack limit offset cursor set uni))
    end
  | Some (OJgted a) => Ok (Some (mkst (if 0 <=? offset - 1 then a else n) stack limit (offset - 1) cursor set uni))
  | Some (OJltd a) => Ok (Some (mkst (if limit - 1 <? 0 then a else n) stack (limit - 1) offset cursor set uni))
  | Some (OPush e) =>
    match cursor with
    | [] => UB
    | r :: _ => Ok (Some (mkst n (stack ++ [ev r e]) limit offset cursor set uni))
    end
  | Some OSetAdd =>
    (* set_add of the last columns_row values of the stack, set.c:126-133, vm.c:1535-1540 *)
    let w := (st_cols set + st_keys set)%nat in
    let rest := (length stack - w)%nat in
    Ok (Some (mkst n (firstn rest stack) limit offset cursor
                   (mkstore (st_cols set) (st_keys set) (st_order set) (st_rows set ++ [skipn rest stack])) uni))
  | Some (ONext a) => Ok (Some (mkst (match tl cursor with [] => n | _ => a end) stack limit offset (tl cursor) set uni))
  | Some OFree => Ok (Some (mkst n stack limit offset [] set uni))
  | Some OSort =>
    Ok (Some (mkst n stack limit offset cursor
                   (mkstore (st_cols set) (st_keys set) (st_order set)
                            (qsort (store_compare (st_cols set) (st_order set)) (st_rows set))) uni))
  | Some (OUnion t) => Ok (Some (mkst n stack limit offset cursor set (Some (mkunion t INT64_MAX 0 []))))
  | Some (OUnionLimit l) =>
    match uni with
    | None => UB
    | Some u => if l <? 0 then Err
                else Ok (Some (mkst n stack limit offset cursor set (Some (mkunion (u_type u) l (u_offset u) (u_inputs u)))))
    end
  | Some (OUnionOffset o) =>
    match uni with
    | None => UB
    | Some u => if o <? 0 then Err
                else Ok (Some (mkst n stack limit offset cursor set (Some (mkunion (u_type u) (u_limit u) o (u_inputs u)))))
    end
  | Some OUnionAdd =>
    match uni with
    | None => UB
    | Some u => Ok (Some (mkst n stack limit offset cursor set
                               (Some (mkunion (u_type u) (u_limit u) (u_offset u) (u_inputs u ++ [set])))))
    end
  | Some ORecv =>
    match uni with
    | None => UB
    | Some u => Ok (Some (mkst n stack limit offset cursor set
                               (Some (mkunion (u_type u) (u_limit u) (u_offset u) (u_inputs u ++ replies)))))
    end
  | Some ORet => Ok None
  end.

(** [fuel] instructions: the result and the stack at the end *)
Fixpoint exec (src : list row) (replies : list store) (code : list op) (fuel : nat) (x : st)
  : option (res (store * list V)) :=
  match fuel with
  | O => None
  | S f =>
    match step src replies code x with
    | Ok None => Some (Ok (result x, s_stack x))
    | Ok (Some y) => exec src replies code f y
    | Err => Some Err
    | UB => Some UB
    end
  end.
Definition start (stack : list V) : st := mkst 0 stack 0 0 [] (mkstore 0 0 [] []) None.

(** the rows a client sees: the keys are not sent (output.c) *)
Definition visible (s : store) : list (list V) := map (firstn (st_cols s)) (st_rows s).

(** a SELECT inside of another statement: emit_select (compiler.c:423-444) on
    the session; [stack] is what the outer statement has pushed *)
Definition select_main (q : query) (t : target) (src : list row) (stack : list V) (fuel : nat)
  : option (res (store * list V)) :=
  exec src [] (program q (plan_main q t)) fuel (start stack).

(** a SELECT of a table: emit_select on every partition, then emit_select_recv *)
Definition select_part (q : query) (t : target) (part : list row) (fuel : nat) : option (res (store * list V)) :=
  exec part [] (program q (fst (plan_pushdown q t))) fuel (start []).
Definition select_recv (q : query) (t : target) (replies : list store) (fuel : nat) : option (res (store * list V)) :=
  exec [] replies (program q (snd (plan_pushdown q t))) fuel (start []).
End Sel.
