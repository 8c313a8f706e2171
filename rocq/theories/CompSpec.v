(** What an expression denotes. *)
From Verif Require Import Base CompModel.

Section Eval.
Context (P : prims) (env : nat -> value).

(** positive numbers, strings and vectors that are not empty, json and uuid are true; NULL is not.
    An interval has no truth value *)
Definition truth (v : value) : res bool :=
  match v with
  | VBool z | VInt z | VDate z | VTimestamp z => Ok (0 <? z)
  | VDouble d => Ok (p_dbl_pos P d)
  | VString [] | VVector [] | VNull => Ok false
  | VInterval _ => UB
  | _ => Ok true
  end.
(** integers, dates and timestamps are compared as numbers, numbers with doubles as doubles, other values
    with values of their type *)
Definition number (v : value) : res Z := match v with VBool z | VInt z | VDate z | VTimestamp z => Ok z | _ => Err end.
Definition sem_rel (r : rel) (a b : value) : res bool :=
  match a, b with
  | VDouble x, VDouble y => Ok (p_dbl_rel P r x y)
  | VDouble x, _ => do y <- number b; Ok (p_dbl_rel P r x (p_dbl_of_int P y))
  | _, VDouble y => do x <- number a; Ok (p_dbl_rel P r (p_dbl_of_int P x) y)
  | VString x, VString y => Ok (rel_cmp r (p_str_cmp P x y))
  | VJson x, VJson y => Ok (rel_cmp r (p_json_cmp P x y))
  | VInterval x, VInterval y => Ok (rel_cmp r (p_iv_cmp P x y))
  | VVector x, VVector y => Ok (rel_cmp r (p_vec_cmp P x y))
  | VUuid x, VUuid y => Ok (rel_cmp r (p_uuid_cmp P x y))
  | _, _ => do x <- number a; do y <- number b; Ok (rel_int r x y)
  end.
Definition sem_num (o : arith) (a b : value) : res value :=
  match a, b with
  | VInt x, VInt y => do z <- p_int P o x y; Ok (VInt z)
  | VInt x, VDouble y => do z <- p_dbl P o (p_dbl_of_int P x) y; Ok (VDouble z)
  | VDouble x, VInt y => do z <- p_dbl P o x (p_dbl_of_int P y); Ok (VDouble z)
  | VDouble x, VDouble y => do z <- p_dbl P o x y; Ok (VDouble z)
  | VVector x, VVector y => do z <- p_vec P o x y; Ok (VVector z)
  | _, _ => Err
  end.
Definition sem_json (x : res (option (list Z))) : res value := do j <- x; Ok (match j with Some j => VJson j | None => VNull end).
(** an operator of two values that are not NULL *)
Definition sem_op (o : bop) (a b : value) : res value :=
  match o with
  | OpEqu => do x <- sem_rel Equ a b; Ok (vbool x)
  | OpGte => do x <- sem_rel Gte a b; Ok (vbool x)
  | OpGt => do x <- sem_rel Gt a b; Ok (vbool x)
  | OpLte => do x <- sem_rel Lte a b; Ok (vbool x)
  | OpLt => do x <- sem_rel Lt a b; Ok (vbool x)
  | OpAdd =>
      match a, b with
      | VDate d, VInt n | VInt n, VDate d => do z <- p_date_add P d n; Ok (VDate z)
      | VTimestamp t, VInterval i | VInterval i, VTimestamp t => do z <- p_ts_add P t i; Ok (VTimestamp z)
      | VDate d, VInterval i | VInterval i, VDate d => do z <- p_date_ts_add P d i; Ok (VTimestamp z)
      | VInterval i, VInterval j => do z <- p_iv_add P i j; Ok (VInterval z)
      | _, _ => sem_num Add a b
      end
  | OpSub =>
      match a, b with
      | VDate d, VInt n => do z <- p_date_sub P d n; Ok (VDate z)
      | VDate d, VDate e => do z <- p_int P Sub d e; Ok (VInt z)
      | VTimestamp t, VInterval i => do z <- p_ts_sub P t i; Ok (VTimestamp z)
      | VTimestamp t, VTimestamp u => do z <- p_ts_diff P t u; Ok (VInterval z)
      | VDate d, VInterval i => do z <- p_date_ts_sub P d i; Ok (VTimestamp z)
      | VInterval i, VInterval j => do z <- p_iv_sub P i j; Ok (VInterval z)
      | _, _ => sem_num Sub a b
      end
  | OpMul => sem_num Mul a b
  | OpDiv => sem_num Div a b
  | OpMod => sem_num Mod a b
  | OpBor => sem_num Bor a b
  | OpBand => sem_num Band a b
  | OpBxor => sem_num Bxor a b
  | OpShl => sem_num Shl a b
  | OpShr => sem_num Shr a b
  | OpCat => match a, b with VString x, VString y => Ok (VString (x ++ y)) | _, _ => Err end
  | OpIdx =>
      match a, b with
      | VJson x, VString y => sem_json (p_idx_obj P x y)
      | VJson x, VInt y => sem_json (p_idx_arr P x y)
      | VVector x, VInt y => do z <- p_idx_vec P x y; Ok (VDouble z)
      | _, _ => Err
      end
  | OpDot => match a, b with VJson x, VString y => sem_json (p_dot P x y) | _, _ => Err end
  | OpLike => match a, b with VString x, VString y => do z <- p_like P x y; Ok (vbool z) | _, _ => Err end
  end.
(** NULL if an operand is NULL *)
Definition sem2 (o : bop) (a b : value) : res value :=
  match a, b with VNull, _ | _, VNull => Ok VNull | _, _ => sem_op o a b end.
Definition sem_not (a : value) : res value := match a with VNull => Ok VNull | _ => do x <- truth a; Ok (vbool (negb x)) end.
(** the second operand is looked at if the first does not decide *)
Definition sem_and (a b : value) : res value :=
  match a, b with
  | VNull, _ | _, VNull => Ok VNull
  | _, _ => do x <- truth a; if x then do y <- truth b; Ok (vbool y) else Ok (vbool false)
  end.
Definition sem_or (a b : value) : res value :=
  match a, b with
  | VNull, VNull => Ok VNull
  | _, _ => do x <- truth a; if x then Ok (vbool true) else do y <- truth b; Ok (vbool y)
  end.
Definition sem_neg (a : value) : res value :=
  match a with
  | VNull => Ok VNull
  | VInt x => do z <- p_int_neg P x; Ok (VInt z)
  | VDouble x => Ok (VDouble (p_dbl_neg P x))
  | VInterval x => do z <- p_iv_neg P x; Ok (VInterval z)
  | _ => Err
  end.
Definition sem_inv (a : value) : res value :=
  match a with VNull => Ok VNull | VInt x => Ok (VInt (p_int_inv P x)) | _ => Err end.
Definition maybe_not (pos : bool) (v : value) : res value := if pos then Ok v else sem_not v.

Fixpoint eval (e : expr) : res value :=
  match e with
  | EConst v => Ok v
  | EInput i => Ok (env i)
  | EBin o l r => do a <- eval l; do b <- eval r; sem2 o a b
  | ENequ l r => do a <- eval l; do b <- eval r; do c <- sem2 OpEqu a b; sem_not c
  | ELike pos l r => do a <- eval l; do b <- eval r; do c <- sem2 OpLike a b; maybe_not pos c
  | EAnd l r => do a <- eval l; do b <- eval r; sem_and a b
  | EOr l r => do a <- eval l; do b <- eval r; sem_or a b
  | ENot e => do a <- eval e; sem_not a
  | ENeg e => do a <- eval e; sem_neg a
  | EInv e => do a <- eval e; sem_inv a
  | EIs pos e => do a <- eval e; Ok (vbool (if pos then is_null a else negb (is_null a)))
  | EIn pos e l => do a <- eval e; do vs <- eval_args l; do c <- p_in P a vs; maybe_not pos c
  | EBetween pos e x y =>
      do a <- eval e; do lo <- eval x; do c1 <- sem2 OpGte a lo; do hi <- eval y; do c2 <- sem2 OpLte a hi;
      do c <- sem_and c1 c2; maybe_not pos c
  | ECall f l => do vs <- eval_args l; p_call P f vs
  | EArray l => do vs <- eval_args l; do j <- p_array P vs; Ok (VJson j)
  | EObj l => do vs <- eval_args l; do j <- p_obj P vs; Ok (VJson j)
  | ECase0 w els =>
      do r <- eval_whens None w;
      match r with Some v => Ok v | None => eval els end
  | ECase x w els =>
      do r <- eval_whens (Some (eval x)) w;
      match r with Some v => Ok v | None => eval els end
  end
with eval_args (l : args) : res (list value) :=
  match l with
  | ANil => Ok []
  | ACons e l => do v <- eval e; do vs <- eval_args l; Ok (v :: vs)
  end
(** the THEN of the first WHEN that is true (or equal to the operand) *)
with eval_whens (x : option (res value)) (w : whens) : res (option value) :=
  match w with
  | WNil => Ok None
  | WCons c r w =>
      do b <- (match x with
               | Some xv => do a <- xv; do b <- eval c; sem2 OpEqu a b
               | None => eval c
               end);
      do t <- truth b;
      if t then do v <- eval r; Ok (Some v) else eval_whens x w
  end.
End Eval.

(** ** the expressions of the theorem: the result of LIKE, which the compiler takes for a string, is not
    the operand of an operator with types, also not as the result of CASE *)
Fixpoint honest (e : expr) : bool :=
  match e with
  | ELike pos _ _ => negb pos
  | EBin OpLike _ _ => false
  | ECase0 w els => honest_whens w && honest els
  | ECase _ w els => honest_whens w && honest els
  | _ => true
  end
with honest_whens (w : whens) : bool :=
  match w with WNil => true | WCons _ r w => honest r && honest_whens w end.
Fixpoint fine (e : expr) : bool :=
  match e with
  | EConst _ | EInput _ => true
  | EBin _ l r | ENequ l r | ELike _ l r => fine l && fine r && honest l && honest r
  | EAnd l r | EOr l r => fine l && fine r
  | ENot e | EIs _ e => fine e
  | ENeg e | EInv e => fine e && honest e
  | EIn _ e l => fine e && fine_args l
  | EBetween _ e x y => fine e && fine x && fine y && honest e && honest x && honest y
  | ECall _ l | EArray l | EObj l => fine_args l
  | ECase0 w els => fine_whens false w && fine els
  | ECase x w els => fine x && honest x && fine_whens true w && fine els
  end
with fine_args (l : args) : bool := match l with ANil => true | ACons e l => fine e && fine_args l end
with fine_whens (operand : bool) (w : whens) : bool :=
  match w with
  | WNil => true
  | WCons c r w => fine c && (negb operand || honest c) && fine r && fine_whens operand w
  end.

(** a value of the type [t], or NULL *)
Definition has_type (t : ty) (v : value) : Prop := v = VNull \/ vty v = t.
(** the inputs have the declared types; calls return the type of the function *)
Definition typed (itype ftype : nat -> ty) (P : prims) (env : nat -> value) : Prop :=
  (forall i, has_type (itype i) (env i)) /\ forall f vs v, p_call P f vs = Ok v -> has_type (ftype f) v.
(** IN gives a truth value *)
Definition in_bool (P : prims) : Prop := forall v l x, p_in P v l = Ok x -> has_type TBool x.

(** what is seen of a run: the value of the register and the registers in use *)
Definition result (m : rmap) (regs0 : regs) (stk : list value) (len : nat) (r : nat) (x : res value) (y : res vm) : Prop :=
  match x, y with
  | Ok v, Ok s => pc s = len /\ rs s r = v /\ st s = stk /\ forall q, rget m q <> None -> rs s q = regs0 q
  | Err, Err => True
  | UB, UB => True
  | _, _ => False
  end.
