(** Model of the compilation of an expression (amelie/compiler/compiler/emit_expr.c, cast.c, rmap.h,
    compiler_op.h) and of the virtual machine that runs it (amelie/vm/vm/vm.c).
    Simplified: an expression is a tree over values and typed inputs (columns, variables, aggregates);
    subqueries, ANY, ALL, EXISTS and functions with a derived type are left out; buffers and their
    reference counts are not modelled; the primitive operations (arithmetic, comparison of strings, ...)
    are parameters: they are the subject of other files. *)
From Verif Require Import Base.

(** ** types and values: server/type.h:14-36, vm/value/value.h:22-48.  A value is a tag and a union;
    bool, int, date and timestamp share the member integer *)
Inductive ty := TNull | TBool | TInt | TDouble | TString | TJson | TDate | TTimestamp | TInterval | TVector | TUuid.
Inductive value :=
| VNull | VBool (z : Z) | VInt (z : Z) | VDouble (d : Z) | VString (s : list Z) | VJson (j : list Z)
| VDate (z : Z) | VTimestamp (z : Z) | VInterval (i : list Z) | VVector (v : list Z) | VUuid (u : list Z).
Definition vty (v : value) : ty :=
  match v with
  | VNull => TNull | VBool _ => TBool | VInt _ => TInt | VDouble _ => TDouble | VString _ => TString | VJson _ => TJson
  | VDate _ => TDate | VTimestamp _ => TTimestamp | VInterval _ => TInterval | VVector _ => TVector | VUuid _ => TUuid
  end.
Definition ty_eqb (a b : ty) : bool :=
  match a, b with
  | TNull, TNull | TBool, TBool | TInt, TInt | TDouble, TDouble | TString, TString | TJson, TJson
  | TDate, TDate | TTimestamp, TTimestamp | TInterval, TInterval | TVector, TVector | TUuid, TUuid => true
  | _, _ => false
  end.
Definition is_null (v : value) : bool := match v with VNull => true | _ => false end.
Definition vbool (b : bool) : value := VBool (if b then 1 else 0).

(** ** the primitive operations *)
Inductive arith := Add | Sub | Mul | Div | Mod | Bor | Band | Bxor | Shl | Shr.
Inductive rel := Equ | Gte | Gt | Lte | Lt.
Record prims := {
  p_int : arith -> Z -> Z -> res Z;                 (* int64_add_overflow, ... , / and % *)
  p_dbl : arith -> Z -> Z -> res Z;                 (* double_add_overflow, ... *)
  p_dbl_of_int : Z -> Z;                            (* the conversion of C *)
  p_dbl_rel : rel -> Z -> Z -> bool;                (* ==, >=, >, <=, < of C *)
  p_str_cmp : list Z -> list Z -> Z;                (* str_compare_fn *)
  p_json_cmp : list Z -> list Z -> Z;
  p_iv_cmp : list Z -> list Z -> Z;
  p_vec_cmp : list Z -> list Z -> Z;
  p_uuid_cmp : list Z -> list Z -> Z;
  p_ts_add : Z -> list Z -> res Z;                  (* timestamp_add *)
  p_ts_sub : Z -> list Z -> res Z;
  p_ts_diff : Z -> Z -> res (list Z);
  p_date_add : Z -> Z -> res Z;
  p_date_sub : Z -> Z -> res Z;
  p_date_ts_add : Z -> list Z -> res Z;             (* timestamp_set_date, timestamp_add *)
  p_date_ts_sub : Z -> list Z -> res Z;
  p_iv_add : list Z -> list Z -> res (list Z);
  p_iv_sub : list Z -> list Z -> res (list Z);
  p_iv_neg : list Z -> res (list Z);
  p_vec : arith -> list Z -> list Z -> res (list Z);
  p_int_neg : Z -> res Z;
  p_int_inv : Z -> Z;
  p_dbl_neg : Z -> Z;
  p_idx_obj : list Z -> list Z -> res (option (list Z));    (* {}['name'] *)
  p_idx_arr : list Z -> Z -> res (option (list Z));         (* [][pos] *)
  p_dot : list Z -> list Z -> res (option (list Z));        (* {}.path *)
  p_idx_vec : list Z -> Z -> res Z;
  p_like : list Z -> list Z -> res bool;
  p_dbl_pos : Z -> bool;                            (* > 0.0 *)
  p_in : value -> list value -> res value;          (* value_in *)
  p_array : list value -> res (list Z);
  p_obj : list value -> res (list Z);
  p_call : nat -> list value -> res value }.

(** ** expressions: compiler/parser/ast.h *)
Inductive bop := OpEqu | OpGte | OpGt | OpLte | OpLt | OpAdd | OpSub | OpMul | OpDiv | OpMod | OpCat | OpIdx | OpDot | OpLike
  | OpBor | OpBand | OpBxor | OpShl | OpShr.
Inductive expr :=
| EConst (v : value)
| EInput (i : nat)
| EBin (o : bop) (l r : expr)
| ENequ (l r : expr)
| ELike (pos : bool) (l r : expr)
| EAnd (l r : expr) | EOr (l r : expr) | ENot (e : expr)
| ENeg (e : expr) | EInv (e : expr)
| EIs (pos : bool) (e : expr)
| EIn (pos : bool) (e : expr) (a : args)
| EBetween (pos : bool) (e x y : expr)
| ECall (f : nat) (a : args)
| EArray (a : args) | EObj (a : args)
| ECase0 (w : whens) (els : expr)                 (* without ELSE: ELSE NULL, the same code (:805-808) *)
| ECase (e : expr) (w : whens) (els : expr)
with args := ANil | ACons (e : expr) (a : args)
with whens := WNil | WCons (c r : expr) (w : whens).
Fixpoint alen (a : args) : nat := match a with ANil => O | ACons _ a => S (alen a) end.

(** ** operations: vm/vm/op.h *)
Inductive opc :=
| CREL_II (r : rel) | CREL_IF (r : rel) | CREL_FI (r : rel) | CREL_FF (r : rel)     (* CEQUII, CGTEII, ... *)
| CREL_LL (r : rel) | CREL_SS (r : rel) | CREL_JJ (r : rel) | CREL_VV (r : rel) | CREL_UU (r : rel)
| CAR_II (a : arith) | CAR_IF (a : arith) | CAR_FI (a : arith) | CAR_FF (a : arith) | CAR_VV (a : arith)
| CADDTL | CADDLL | CADDLT | CADDDI | CADDID | CADDDL | CADDLD
| CSUBTL | CSUBTT | CSUBLL | CSUBDI | CSUBDL
| CCATSS | CIDXJS | CIDXJI | CIDXVI | CDOTJS | CLIKESS.
Inductive instr :=
| IConst (a : nat) (v : value)                 (* CNULL, CBOOL, CINT, ..., CVALUE *)
| IInput (a : nat) (i : nat)                   (* CVAR, CTABLE_READ.., CSTORE_READ, CJSON_READ, CREF *)
| IBin (o : opc) (a b c : nat)
| INullop (a b c : nat)
| IAnd (a b c : nat) | IOr (a b c : nat) | INot (a b : nat)
| INegI (a b : nat) | INegF (a b : nat) | INegL (a b : nat) | IInv (a b : nat)
| IIs (a b : nat)
| IIn (a b : nat) (n : nat)
| IArray (a : nat) (n : nat) | IObj (a : nat) (n : nat)
| ICall (a : nat) (f : nat) (n : nat)
| IPush (a : nat) | IPushC (v : value)
| IMov (a b : nat)
| IJmp (to : nat) | IJntr (to : nat) (b : nat).

(** ** the registers of the compiler: compiler/compiler/rmap.h; [None]: 0xff *)
Definition rmap := list (option ty).
Definition rget (m : rmap) (r : nat) : option ty := nth r m None.
(** rmap.h:28-32 rmap_assign *)
Fixpoint rassign (m : rmap) (r : nat) (x : option ty) : rmap :=
  match m, r with
  | [], _ => []
  | _ :: m, O => x :: m
  | y :: m, S r => y :: rassign m r x
  end.
(** rmap.h:53-70 rmap_pin *)
Fixpoint rpin (m : rmap) (t : ty) : rmap * nat :=
  match m with
  | [] => ([Some t], O)
  | None :: m => (Some t :: m, O)
  | Some x :: m => let '(m, r) := rpin m t in (Some x :: m, S r)
  end.
(** rmap.h:72-76 rmap_unpin *)
Definition runpin (m : rmap) (r : nat) : rmap := rassign m r None.

(** compiler.h: the code and the registers *)
Record comp := { code : list instr; map_ : rmap }.
Definition op (s : comp) (i : instr) : comp := {| code := code s ++ [i]; map_ := map_ s |}.
Definition pin (s : comp) (t : ty) : comp * nat := let '(m, r) := rpin (map_ s) t in ({| code := code s; map_ := m |}, r).
Definition unpin (s : comp) (r : nat) : comp := {| code := code s; map_ := runpin (map_ s) r |}.
Definition rtype (s : comp) (r : nat) : option ty := rget (map_ s) r.
(** compiler_op.h:38-117 op1pin .. op5pin *)
Definition op_pin (s : comp) (t : ty) (i : nat -> instr) : comp * nat := let '(s, r) := pin s t in (op s (i r), r).
(** compiler_op.h:119-145 op_pos, op_set_jmp *)
Definition op_pos (s : comp) : nat := length (code s).
Definition set_target (i : instr) (to : nat) : instr :=
  match i with IJmp _ => IJmp to | IJntr _ b => IJntr to b | _ => i end.
Fixpoint set_nth (l : list instr) (p : nat) (to : nat) : list instr :=
  match l, p with
  | [], _ => []
  | i :: l, O => set_target i to :: l
  | i :: l, S p => i :: set_nth l p to
  end.
Definition set_jmp (s : comp) (p to : nat) : comp := {| code := set_nth (code s) p to; map_ := map_ s |}.

(** ** cast.c:30-339 cast_op *)
Definition cast_rel (r : rel) (l t : ty) : option (ty * opc) :=
  match r, l, t with
  | Equ, TBool, TBool => Some (TBool, CREL_II r)
  | Equ, TBool, TInt => Some (TBool, CREL_II r)
  | Equ, TInt, TBool => Some (TBool, CREL_II r)
  | _, TInt, TInt => Some (TBool, CREL_II r)
  | _, TInt, TDouble => Some (TBool, CREL_IF r)
  | _, TInt, TTimestamp => Some (TBool, CREL_II r)
  | Equ, TInt, TDate => Some (TBool, CREL_II r)
  | Equ, TDouble, TBool => Some (TBool, CREL_FI r)
  | _, TDouble, TInt => Some (TBool, CREL_FI r)
  | _, TDouble, TDouble => Some (TBool, CREL_FF r)
  | _, TTimestamp, TInt => Some (TBool, CREL_II r)
  | _, TTimestamp, TTimestamp => Some (TBool, CREL_II r)
  | _, TInterval, TInterval => Some (TBool, CREL_LL r)
  | _, TDate, TInt => Some (TBool, CREL_II r)
  | _, TDate, TDate => Some (TBool, CREL_II r)
  | _, TString, TString => Some (TBool, CREL_SS r)
  | Equ, TJson, TJson => Some (TBool, CREL_JJ r)
  | _, TVector, TVector => Some (TBool, CREL_VV r)
  | _, TUuid, TUuid => Some (TBool, CREL_UU r)
  | _, _, _ => None
  end.
Definition cast_num (a : arith) (l t : ty) : option (ty * opc) :=
  match l, t with
  | TInt, TInt => Some (TInt, CAR_II a)
  | TInt, TDouble => Some (TDouble, CAR_IF a)
  | TDouble, TInt => Some (TDouble, CAR_FI a)
  | TDouble, TDouble => Some (TDouble, CAR_FF a)
  | _, _ => None
  end.
Definition cast_int (a : arith) (l t : ty) : option (ty * opc) :=
  match l, t with TInt, TInt => Some (TInt, CAR_II a) | _, _ => None end.
Definition cast_op (o : bop) (l t : ty) : option (ty * opc) :=
  match o with
  | OpEqu => cast_rel Equ l t
  | OpGte => cast_rel Gte l t
  | OpGt => cast_rel Gt l t
  | OpLte => cast_rel Lte l t
  | OpLt => cast_rel Lt l t
  | OpAdd =>
      match l, t with
      | TInt, TDate => Some (TDate, CADDID)
      | TTimestamp, TInterval => Some (TTimestamp, CADDTL)
      | TInterval, TInterval => Some (TInterval, CADDLL)
      | TInterval, TTimestamp => Some (TTimestamp, CADDLT)
      | TInterval, TDate => Some (TTimestamp, CADDLD)
      | TDate, TInt => Some (TDate, CADDDI)
      | TDate, TInterval => Some (TTimestamp, CADDDL)
      | TVector, TVector => Some (TVector, CAR_VV Add)
      | _, _ => cast_num Add l t
      end
  | OpSub =>
      match l, t with
      | TTimestamp, TInterval => Some (TTimestamp, CSUBTL)
      | TTimestamp, TTimestamp => Some (TInterval, CSUBTT)
      | TInterval, TInterval => Some (TInterval, CSUBLL)
      | TDate, TInt => Some (TDate, CSUBDI)
      | TDate, TInterval => Some (TTimestamp, CSUBDL)
      | TDate, TDate => Some (TInt, CAR_II Sub)
      | TVector, TVector => Some (TVector, CAR_VV Sub)
      | _, _ => cast_num Sub l t
      end
  | OpMul => match l, t with TVector, TVector => Some (TVector, CAR_VV Mul) | _, _ => cast_num Mul l t end
  | OpDiv => cast_num Div l t
  | OpMod => cast_int Mod l t
  | OpCat => match l, t with TString, TString => Some (TString, CCATSS) | _, _ => None end
  | OpIdx => match l, t with
             | TJson, TString => Some (TJson, CIDXJS)
             | TJson, TInt => Some (TJson, CIDXJI)
             | TVector, TInt => Some (TDouble, CIDXVI)
             | _, _ => None
             end
  | OpDot => match l, t with TJson, TString => Some (TJson, CDOTJS) | _, _ => None end
  | OpLike => match l, t with TString, TString => Some (TString, CLIKESS) | _, _ => None end
  | OpBor => cast_int Bor l t
  | OpBand => cast_int Band l t
  | OpBxor => cast_int Bxor l t
  | OpShl => cast_int Shl l t
  | OpShr => cast_int Shr l t
  end.
(** cast.c:370-399 cast_operator *)
Definition cast_operator (s : comp) (o : bop) (l r : nat) : res (comp * nat) :=
  match rtype s l, rtype s r with
  | Some lt, Some rt =>
      match lt, rt with
      | TNull, _ | _, TNull =>
          let '(s, a) := op_pin s TNull (fun a => INullop a l r) in Ok (unpin (unpin s l) r, a)
      | _, _ =>
          match cast_op o lt rt with
          | None => Err
          | Some (t, c) => let '(s, a) := op_pin s t (fun a => IBin c a l r) in Ok (unpin (unpin s l) r, a)
          end
      end
  | _, _ => UB
  end.

(** ** emit_expr.c *)
Section Emit.
Context (itype : nat -> ty) (ftype : nat -> ty).      (* the types of the inputs and of the functions *)

(** emit_expr.c: op2pin and runpin of the operand *)
Definition unary_op (s : comp) (t : ty) (i : nat -> nat -> instr) (r : nat) : comp * nat :=
  let '(s, a) := op_pin s t (fun a => i a r) in (unpin s r, a).
(** emit_expr.c:772-778, 798-804 the type of the result of CASE *)
Definition case_type (s : comp) (rres : nat) (rthen : nat) : res comp :=
  match rtype s rres, rtype s rthen with
  | Some TNull, Some t => Ok {| code := code s; map_ := rassign (map_ s) rres (Some t) |}
  | Some t, Some t' => if ty_eqb t t' || ty_eqb t' TNull then Ok s else Err
  | _, _ => UB
  end.
Definition binary_op (s : comp) (t : ty) (i : nat -> nat -> nat -> instr) (l r : nat) : comp * nat :=
  let '(s, a) := op_pin s t (fun a => i a l r) in (unpin (unpin s l) r, a).

(** emit_expr.c:953-1249 emit_expr *)
Fixpoint emit (e : expr) (s : comp) {struct e} : res (comp * nat) :=
  match e with
  | EConst v => Ok (op_pin s (vty v) (fun a => IConst a v))
  | EInput i => Ok (op_pin s (itype i) (fun a => IInput a i))
  | EBin o l r =>                                                       (* :503-509 emit_operator *)
      do (s, a) <- emit l s; do (s, b) <- emit r s; cast_operator s o a b
  | ENequ l r =>
      do (s, a) <- emit l s; do (s, b) <- emit r s; do (s, c) <- cast_operator s OpEqu a b;
      Ok (unary_op s TBool INot c)
  | ELike pos l r =>
      do (s, a) <- emit l s; do (s, b) <- emit r s; do (s, c) <- cast_operator s OpLike a b;
      if pos then Ok (s, c) else Ok (unary_op s TBool INot c)
  | EAnd l r => do (s, a) <- emit l s; do (s, b) <- emit r s; Ok (binary_op s TBool IAnd a b)
  | EOr l r => do (s, a) <- emit l s; do (s, b) <- emit r s; Ok (binary_op s TBool IOr a b)
  | ENot e => do (s, a) <- emit e s; Ok (unary_op s TBool INot a)
  | ENeg e =>
      do (s, a) <- emit e s;
      match rtype s a with
      | Some TInt => Ok (unary_op s TInt INegI a)
      | Some TDouble => Ok (unary_op s TDouble INegF a)
      | Some TInterval => Ok (unary_op s TInterval INegL a)
      | Some _ => Err
      | None => UB
      end
  | EInv e =>
      do (s, a) <- emit e s;
      match rtype s a with
      | Some TInt => Ok (unary_op s TInt IInv a)
      | Some _ => Err
      | None => UB
      end
  | EIs pos e =>                                                        (* :820-838 emit_is *)
      do (s, a) <- emit e s;
      let '(s, b) := unary_op s TBool IIs a in
      if pos then Ok (s, b) else Ok (unary_op s TBool INot b)
  | EIn pos e l =>                                                      (* :840-879 emit_in *)
      do (s, a) <- emit e s;
      do s <- emit_args l s;
      let '(s, b) := unary_op s TBool (fun x y => IIn x y (alen l)) a in
      if pos then Ok (s, b) else Ok (unary_op s TBool INot b)
  | EBetween pos e x y =>                                               (* :681-713 emit_between *)
      do (s, a1) <- emit e s; do (s, a2) <- emit x s; do (s, b1) <- cast_operator s OpGte a1 a2;
      do (s, a3) <- emit e s; do (s, a4) <- emit y s; do (s, b2) <- cast_operator s OpLte a3 a4;
      let '(s, b) := binary_op s TBool IAnd b1 b2 in
      if pos then Ok (s, b) else Ok (unary_op s TBool INot b)
  | ECall f l =>                                                        (* :610-640 emit_func *)
      do s <- emit_args l s;
      Ok (op_pin s (ftype f) (fun a => ICall a f (alen l)))
  | EArray l => do s <- emit_args l s; Ok (op_pin s TJson (fun a => IArray a (alen l)))      (* :51-76 emit_json *)
  | EObj l => do s <- emit_args l s; Ok (op_pin s TJson (fun a => IObj a (alen l)))
  | ECase0 w els =>                                                     (* :715-818 emit_case *)
      let '(s, rres) := pin s TNull in
      do (s, stops) <- emit_whens None w rres s;
      do (s, relse) <- emit els s;
      do s <- case_type s rres relse;
      let s := unpin (op s (IMov rres relse)) relse in
      Ok (fold_left (fun s p => set_jmp s p (op_pos s)) stops s, rres)
  | ECase x w els =>
      let '(s, rres) := pin s TNull in
      do (s, stops) <- emit_whens (Some (emit x)) w rres s;
      do (s, relse) <- emit els s;
      do s <- case_type s rres relse;
      let s := unpin (op s (IMov rres relse)) relse in
      Ok (fold_left (fun s p => set_jmp s p (op_pos s)) stops s, rres)
  end
(** emit_expr.c:1251-1363 emit_push for every argument *)
with emit_args (l : args) (s : comp) {struct l} : res comp :=
  match l with
  | ANil => Ok s
  | ACons e l =>
      do s <- (match e with
               | EConst v => Ok (op s (IPushC v))
               | _ => do (s, a) <- emit e s; Ok (unpin (op s (IPush a)) a)
               end);
      emit_args l s
  end
(** emit_expr.c:748-790 the loop of emit_case over WHEN: the positions of the jumps to the end.
    [x] compiles the operand of CASE *)
with emit_whens (x : option (comp -> res (comp * nat))) (w : whens) (rres : nat) (s : comp) {struct w} : res (comp * list nat) :=
  match w with
  | WNil => Ok (s, [])
  | WCons c r w =>
      do (s, rcond) <- (match x with
                        | Some f => do (s, a) <- f s; do (s, b) <- emit c s; cast_operator s OpEqu a b
                        | None => emit c s
                        end);
      let jntr := op_pos s in
      let s := op s (IJntr 0 rcond) in
      do (s, rthen) <- emit r s;
      do s <- case_type s rres rthen;
      let s := unpin (op s (IMov rres rthen)) rthen in
      let stop := op_pos s in
      let s := op s (IJmp 0) in
      let s := unpin (set_jmp s jntr (op_pos s)) rcond in
      do (s, stops) <- emit_whens x w rres s;
      Ok (s, stop :: stops)
  end.
End Emit.

(** the compiler before the expression: compiler.c; other registers may be in use *)
Definition comp_init (m : rmap) : comp := {| code := []; map_ := m |}.

(** ** vm.c *)
Section Run.
Context (P : prims) (env : nat -> value).

(** reading a member of the union that was not written: UB *)
Definition get_int (v : value) : res Z := match v with VBool z | VInt z | VDate z | VTimestamp z => Ok z | _ => UB end.
Definition get_dbl (v : value) : res Z := match v with VDouble z => Ok z | _ => UB end.
Definition get_str (v : value) : res (list Z) := match v with VString s => Ok s | _ => UB end.
Definition get_json (v : value) : res (list Z) := match v with VJson s => Ok s | _ => UB end.
Definition get_iv (v : value) : res (list Z) := match v with VInterval s => Ok s | _ => UB end.
Definition get_vec (v : value) : res (list Z) := match v with VVector s => Ok s | _ => UB end.
Definition get_uuid (v : value) : res (list Z) := match v with VUuid s => Ok s | _ => UB end.
(** vm/value/compare.h:14-45 value_is_true: an interval is read as a pointer to a vector *)
Definition is_true (v : value) : res bool :=
  match v with
  | VNull => Ok false
  | VBool z | VInt z | VDate z | VTimestamp z => Ok (0 <? z)
  | VDouble d => Ok (p_dbl_pos P d)
  | VString s => Ok (negb (match s with [] => true | _ => false end))
  | VVector l => Ok (negb (match l with [] => true | _ => false end))
  | VInterval _ => UB
  | VJson _ | VUuid _ => Ok true
  end.
Definition rel_cmp (r : rel) (c : Z) : bool :=
  match r with Equ => c =? 0 | Gte => 0 <=? c | Gt => 0 <? c | Lte => c <=? 0 | Lt => c <? 0 end.
Definition rel_int (r : rel) (x y : Z) : bool :=
  match r with Equ => x =? y | Gte => y <=? x | Gt => y <? x | Lte => x <=? y | Lt => x <? y end.
Definition opt_json (x : option (list Z)) : value := match x with Some j => VJson j | None => VNull end.

(** vm.c:760-1470 the operations on two values that are not NULL *)
Definition exec_op (o : opc) (b c : value) : res value :=
  match o with
  | CREL_II r => do x <- get_int b; do y <- get_int c; Ok (vbool (rel_int r x y))
  | CREL_IF r => do x <- get_int b; do y <- get_dbl c; Ok (vbool (p_dbl_rel P r (p_dbl_of_int P x) y))
  | CREL_FI r => do x <- get_dbl b; do y <- get_int c; Ok (vbool (p_dbl_rel P r x (p_dbl_of_int P y)))
  | CREL_FF r => do x <- get_dbl b; do y <- get_dbl c; Ok (vbool (p_dbl_rel P r x y))
  | CREL_LL r => do x <- get_iv b; do y <- get_iv c; Ok (vbool (rel_cmp r (p_iv_cmp P x y)))
  | CREL_SS r => do x <- get_str b; do y <- get_str c; Ok (vbool (rel_cmp r (p_str_cmp P x y)))
  | CREL_JJ r => do x <- get_json b; do y <- get_json c; Ok (vbool (rel_cmp r (p_json_cmp P x y)))
  | CREL_VV r => do x <- get_vec b; do y <- get_vec c; Ok (vbool (rel_cmp r (p_vec_cmp P x y)))
  | CREL_UU r => do x <- get_uuid b; do y <- get_uuid c; Ok (vbool (rel_cmp r (p_uuid_cmp P x y)))
  | CAR_II a => do x <- get_int b; do y <- get_int c; do z <- p_int P a x y; Ok (VInt z)
  | CAR_IF a => do x <- get_int b; do y <- get_dbl c; do z <- p_dbl P a (p_dbl_of_int P x) y; Ok (VDouble z)
  | CAR_FI a => do x <- get_dbl b; do y <- get_int c; do z <- p_dbl P a x (p_dbl_of_int P y); Ok (VDouble z)
  | CAR_FF a => do x <- get_dbl b; do y <- get_dbl c; do z <- p_dbl P a x y; Ok (VDouble z)
  | CAR_VV a => do x <- get_vec b; do y <- get_vec c; do z <- p_vec P a x y; Ok (VVector z)
  | CADDTL => do x <- get_int b; do y <- get_iv c; do z <- p_ts_add P x y; Ok (VTimestamp z)
  | CADDLL => do x <- get_iv b; do y <- get_iv c; do z <- p_iv_add P x y; Ok (VInterval z)
  | CADDLT => do x <- get_iv b; do y <- get_int c; do z <- p_ts_add P y x; Ok (VTimestamp z)
  | CADDDI => do x <- get_int b; do y <- get_int c; do z <- p_date_add P x y; Ok (VDate z)
  | CADDID => do x <- get_int b; do y <- get_int c; do z <- p_date_add P y x; Ok (VDate z)
  | CADDDL => do x <- get_int b; do y <- get_iv c; do z <- p_date_ts_add P x y; Ok (VTimestamp z)
  | CADDLD => do x <- get_iv b; do y <- get_int c; do z <- p_date_ts_add P y x; Ok (VTimestamp z)
  | CSUBTL => do x <- get_int b; do y <- get_iv c; do z <- p_ts_sub P x y; Ok (VTimestamp z)
  | CSUBTT => do x <- get_int b; do y <- get_int c; do z <- p_ts_diff P x y; Ok (VInterval z)
  | CSUBLL => do x <- get_iv b; do y <- get_iv c; do z <- p_iv_sub P x y; Ok (VInterval z)
  | CSUBDI => do x <- get_int b; do y <- get_int c; do z <- p_date_sub P x y; Ok (VDate z)
  | CSUBDL => do x <- get_int b; do y <- get_iv c; do z <- p_date_ts_sub P x y; Ok (VTimestamp z)
  | CCATSS => do x <- get_str b; do y <- get_str c; Ok (VString (x ++ y))
  | CIDXJS => do x <- get_json b; do y <- get_str c; do z <- p_idx_obj P x y; Ok (opt_json z)
  | CIDXJI => do x <- get_json b; do y <- get_int c; do z <- p_idx_arr P x y; Ok (opt_json z)
  | CIDXVI => do x <- get_vec b; do y <- get_int c; do z <- p_idx_vec P x y; Ok (VDouble z)
  | CDOTJS => do x <- get_json b; do y <- get_str c; do z <- p_dot P x y; Ok (opt_json z)
  | CLIKESS => do x <- get_str b; do y <- get_str c; do z <- p_like P x y; Ok (vbool z)
  end.
(** vm.c: the operands are freed by value_null and value_free, not by value_null_fast *)
Definition frees (o : opc) : bool :=
  match o with
  | CREL_SS _ | CREL_JJ _ | CREL_VV _ | CAR_VV _ | CCATSS | CIDXJS | CIDXJI | CIDXVI | CDOTJS | CLIKESS => true
  | _ => false
  end.

Definition regs := nat -> value.
Definition rset (r : regs) (a : nat) (v : value) : regs := fun q => if Nat.eqb q a then v else r q.
Record vm := { pc : nat; rs : regs; st : list value }.
Definition next (s : vm) (r : regs) : res vm := Ok {| pc := S (pc s); rs := r; st := st s |}.
Definition next_st (s : vm) (r : regs) (k : list value) : res vm := Ok {| pc := S (pc s); rs := r; st := k |}.
(** vm/value/null.h and the operation *)
Definition null2 (b c : value) (x : res value) : res value := if is_null b || is_null c then Ok VNull else x.
Definition null1 (b : value) (x : res value) : res value := if is_null b then Ok VNull else x.
(** the arguments of a call: stack_at(count), in the order they were pushed *)
Definition pop_args (n : nat) (k : list value) : res (list value * list value) :=
  if Nat.leb n (length k) then Ok (rev (firstn n k), skipn n k) else UB.

(** one operation.  In the case of NULL, value_null frees the operands before it sets the result, in the
    other case after; the result is never an operand (rpin before runpin), so the order is not kept *)
Definition step (C : list instr) (s : vm) : res vm :=
  match nth_error C (pc s) with
  | None => UB
  | Some i =>
      match i with
      | IConst a v => next s (rset (rs s) a v)
      | IInput a i => next s (rset (rs s) a (env i))
      | IBin o a b c =>                                                  (* :760-1470 *)
          do v <- null2 (rs s b) (rs s c) (exec_op o (rs s b) (rs s c));
          let r := rset (rs s) a v in
          next s (if frees o then rset (rset r b VNull) c VNull else r)
      | INullop a b c => next s (rset (rset (rset (rs s) a VNull) b VNull) c VNull)      (* :690-695 *)
      | IAnd a b c =>                                                    (* :703-710 *)
          do v <- null2 (rs s b) (rs s c)
                    (do x <- is_true (rs s b); if x then do y <- is_true (rs s c); Ok (vbool y) else Ok (vbool false));
          next s (rset (rset (rset (rs s) a v) b VNull) c VNull)
      | IOr a b c =>                                                     (* :712-722 *)
          do v <- (if is_null (rs s b) && is_null (rs s c) then Ok VNull
                   else do x <- is_true (rs s b); if x then Ok (vbool true) else do y <- is_true (rs s c); Ok (vbool y));
          next s (rset (rset (rset (rs s) a v) b VNull) c VNull)
      | INot a b =>                                                      (* :724-730 *)
          do v <- null1 (rs s b) (do x <- is_true (rs s b); Ok (vbool (negb x)));
          next s (rset (rset (rs s) a v) b VNull)
      | INegI a b => do v <- null1 (rs s b) (do x <- get_int (rs s b); do z <- p_int_neg P x; Ok (VInt z)); next s (rset (rs s) a v)
      | INegF a b => do v <- null1 (rs s b) (do x <- get_dbl (rs s b); Ok (VDouble (p_dbl_neg P x))); next s (rset (rs s) a v)
      | INegL a b => do v <- null1 (rs s b) (do x <- get_iv (rs s b); do z <- p_iv_neg P x; Ok (VInterval z)); next s (rset (rs s) a v)
      | IInv a b => do v <- null1 (rs s b) (do x <- get_int (rs s b); Ok (VInt (p_int_inv P x))); next s (rset (rs s) a v)
      | IIs a b => next s (rset (rset (rs s) a (vbool (is_null (rs s b)))) b VNull)      (* :697-701 *)
      | IIn a b n =>                                                     (* :1472-1476 *)
          do (l, k) <- pop_args n (st s); do v <- p_in P (rs s b) l; next_st s (rset (rs s) a v) k
      | IArray a n => do (l, k) <- pop_args n (st s); do v <- p_array P l; next_st s (rset (rs s) a (VJson v)) k
      | IObj a n => do (l, k) <- pop_args n (st s); do v <- p_obj P l; next_st s (rset (rs s) a (VJson v)) k
      | ICall a f n => do (l, k) <- pop_args n (st s); do v <- p_call P f l; next_st s (rset (rs s) a v) k  (* :2005-2018 *)
      | IPush a => next_st s (rset (rs s) a VNull) (rs s a :: st s)      (* :485-489 *)
      | IPushC v => next_st s (rs s) (v :: st s)
      | IMov a b => next s (rset (rset (rs s) a (rs s b)) b VNull)       (* :480-483 value_move *)
      | IJmp to => Ok {| pc := to; rs := rs s; st := st s |}             (* :425-428 *)
      | IJntr to b =>                                                    (* :441-450 *)
          do x <- is_true (rs s b);
          Ok {| pc := if x then S (pc s) else to; rs := rset (rs s) b VNull; st := st s |}
      end
  end.

(** running the code: the states reached, or the failure *)
Inductive goes (C : list instr) : vm -> res vm -> Prop :=
| g_stay s : goes C s (Ok s)
| g_step s s' x : step C s = Ok s' -> goes C s' x -> goes C s x
| g_err s : step C s = Err -> goes C s Err
| g_ub s : step C s = UB -> goes C s UB.
End Run.
