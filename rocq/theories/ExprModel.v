(** Model of the expression parser (amelie/compiler/parser/parse_expr.c): operators by priority with two
    stacks.  The input is the list of tokens of the lexer; the empty list is the end of the text.
    Simplified: the tokens are those of the list below (subqueries, aggregates, lambdas, EXTRACT, CAST,
    literals of time and vectors, variables are left out); every error is [Err]; functions are not
    executed while parsing (expr_func_constify). *)
From Verif Require Import Base.

(** ** tokens *)
(** binary operators: the symbols and keywords of priority_map, parse_expr.c:21-60 *)
Inductive binop := BOr | BAnd | BEq | BNeq | BGte | BLte | BGt | BLt | BBor | BBxor | BBand | BShl | BShr
  | BAdd | BSub | BCat | BMul | BDiv | BMod.
Inductive op1 := ONeg | ONot | OInv.
(** nodes with two operands; [true] in BETWEEN, IN, LIKE, IS: without NOT (ast->integer, KNOT_BETWEEN) *)
Inductive op2 := OBin (o : binop) | OBetween (b : bool) | OIn (b : bool) | OLike (b : bool) | OIs (b : bool)
  | OQuant (any : bool) | OAt | OMethod | OIdx | ODot.
(** a value that is one token: int, real, string, name, any other (TRUE, NULL, ...) *)
Inductive atom := XInt (z : Z) | XReal (z : Z) | XStr (s : Z) | XName (s : Z) | XConst (s : Z).
Inductive ast :=
| Aatom (x : atom)
| A1 (o : op1) (l : ast)
| A2 (o : op2) (l r : ast)
| Aargs (l : list ast)                                    (* KARGS *)
| Aarr (l : list ast) | Aobj (l : list ast)
| Afunc (name : Z) (args : option (list ast))
| Aquant (o : binop) (r : ast)                            (* the right side of ANY and ALL *)
| Acase (e : option ast) (w : list (ast * ast)) (els : option ast).
Inductive tok :=
| Tatom (x : atom) | Top (o : binop)
| Tnot | Tinv | Tlbr | Trbr | Tlpar | Trpar | Tlbrace | Trbrace | Tcomma | Tcolon
| Tbetween | Tin | Tlike | Tis | Tat | Ttimezone | Tany | Tall | Tdot | Tmethod
| Tcase | Twhen | Tthen | Telse | Tend
| Tother (n : Z)                                          (* any token without a priority: FROM, ; *)
| Tnode (a : ast).                                        (* an operand put back by parse_expr *)

(** parse_expr.c:21-60 priority_map of operators *)
Definition bin_prio (o : binop) : Z :=
  match o with
  | BOr => 1
  | BAnd => 2
  | BEq | BNeq => 3
  | BGte | BLte | BGt | BLt => 4
  | BBor => 5
  | BBxor => 6
  | BBand => 7
  | BShl | BShr => 8
  | BAdd | BSub | BCat => 9
  | BMul | BDiv | BMod => 10
  end.
Definition priority_value : Z := 99.
(** parse_expr.c:21-102 priority_map; tokens that are not there have the priority 0 *)
Definition priority (t : tok) : Z :=
  match t with
  | Tatom _ | Tlpar | Tlbrace | Tcase => priority_value
  | Top o => bin_prio o
  | Tis | Tlike => 3
  | Tbetween | Tin | Tat => 4
  | Tnot => 9
  | Tinv => 11
  | Tlbr | Tdot | Tmethod => 12
  | _ => 0
  end.

(** ** the stacks: the head of the list is the top *)
Definition stack := list ((op1 + op2) * Z).
(** parse_expr.c:107-136 expr_pop *)
Definition expr_pop (h : (op1 + op2) * Z) (s : list ast) : res (list ast) :=
  match fst h with
  | inl o => match s with l :: r => Ok (A1 o l :: r) | _ => Err end
  | inr o => match s with r :: l :: t => Ok (A2 o l r :: t) | _ => Err end
  end.
(** parse_expr.c:138-154 expr_operator: the loop *)
Fixpoint pop_while (prio : Z) (o : stack) (r : list ast) : res (stack * list ast) :=
  match o with
  | h :: t => if prio <=? snd h then do r' <- expr_pop h r; pop_while prio t r' else Ok (o, r)
  | [] => Ok ([], r)
  end.
Fixpoint pop_all (o : stack) (r : list ast) : res (list ast) :=
  match o with
  | h :: t => do r' <- expr_pop h r; pop_all t r'
  | [] => Ok r
  end.
(** parse_expr.c:1150-1165 the end of parse_expr: the first operand is the result, the others are put
    back as tokens *)
Definition as_tok (a : ast) : tok := match a with Aatom x => Tatom x | _ => Tnode a end.
Definition finish (o : stack) (r : list ast) (toks : list tok) : res (ast * list tok) :=
  do r <- pop_all o r;
  match rev r with
  | [] => Err
  | a :: rest => Ok (a, map as_tok rest ++ toks)
  end.
Definition tok_eqb_end (e t : tok) : bool :=
  match e, t with Trpar, Trpar | Trbr, Trbr | Trbrace, Trbrace => true | _, _ => false end.
Definition is_logic (t : tok) : bool := match t with Top BAnd | Top BOr => true | _ => false end.
Definition is_cmp (o : binop) : bool := match o with BEq | BNeq | BGte | BLte | BGt | BLt => true | _ => false end.

(** ** the functions; the fuel bounds the depth of the calls and the iterations *)
Fixpoint parse_expr (fuel : nat) (and_or : bool) (toks : list tok) {struct fuel} : res (ast * list tok) :=
  match fuel with O => UB | S f => expr_loop f and_or [] [] true toks end

(** parse_expr.c:1111-1148 the loop of parse_expr *)
with expr_loop (fuel : nat) (and_or : bool) (o : stack) (r : list ast) (unary : bool) (toks : list tok) {struct fuel} : res (ast * list tok) :=
  match fuel with
  | O => UB
  | S f =>
      match toks with
      | [] => finish o r []
      | t :: ts =>
          if negb and_or && is_logic t then finish o r toks
          else if priority t =? 0 then finish o r toks
          else if priority t =? priority_value then
            do (a, ts') <- parse_value f and_or t ts;
            expr_loop f and_or o (a :: r) false ts'
          else if unary then
            do (st, ts') <- parse_unary f and_or o r t ts;
            expr_loop f and_or (fst st) (snd st) false ts'
          else
            do (st, ts') <- parse_op f and_or o r t (priority t) ts;
            let '(o', r', u') := st in
            expr_loop f and_or o' r' u' ts'
      end
  end

(** parse_expr.c:614-833 expr_value *)
with parse_value (fuel : nat) (and_or : bool) (t : tok) (toks : list tok) {struct fuel} : res (ast * list tok) :=
  match fuel with
  | O => UB
  | S f =>
      match t with
      | Tlpar => do (a, ts) <- parse_expr f and_or toks;
                 match ts with Trpar :: ts' => Ok (a, ts') | _ => Err end
      | Tcase => case_loop f and_or None [] None toks
      | Tlbrace => do (l, ts) <- parse_args f and_or Trbrace true toks; Ok (Aobj l, ts)
      | Tatom (XName n) => match toks with
                           | Tlpar :: ts => do (l, ts') <- parse_args f and_or Trpar false ts; Ok (Afunc n (Some l), ts')
                           | _ => Ok (Aatom (XName n), toks)
                           end
      | Tatom x => Ok (Aatom x, toks)
      | _ => Err
      end
  end

(** parse_expr.c:835-886 parse_unary; it always returns false *)
with parse_unary (fuel : nat) (and_or : bool) (o : stack) (r : list ast) (t : tok) (toks : list tok) {struct fuel} : res ((stack * list ast) * list tok) :=
  match fuel with
  | O => UB
  | S f =>
      match t with
      | Tlbr => do (l, ts) <- parse_args f and_or Trbr false toks; Ok ((o, Aarr l :: r), ts)
      | Tnot => do (o', r') <- pop_while 11 o r; Ok (((inl ONot, 11) :: o', r'), toks)
      | Top BSub =>
          match toks with
          | Tatom (XInt z) :: ts => Ok ((o, Aatom (XInt (- z)) :: r), ts)
          | Tatom (XReal z) :: ts => Ok ((o, Aatom (XReal (- z)) :: r), ts)
          | _ => do (o', r') <- pop_while 11 o r; Ok (((inl ONeg, 11) :: o', r'), toks)
          end
      | Tinv => do (o', r') <- pop_while 11 o r; Ok (((inl OInv, 11) :: o', r'), toks)
      | _ => Err
      end
  end

(** parse_expr.c:888-1109 parse_op; the last result is [unary] *)
with parse_op (fuel : nat) (and_or : bool) (o : stack) (r : list ast) (t : tok) (prio : Z) (toks : list tok) {struct fuel} : res ((stack * list ast * bool) * list tok) :=
  match fuel with
  | O => UB
  | S f =>
      (* :899-917 NOT *)
      do (neg_t, st0) <- (match t with
                          | Tnot => match toks with
                                    | Tbetween :: ts => Ok ((true, Tbetween), (4, ts))
                                    | Tin :: ts => Ok ((true, Tin), (4, ts))
                                    | Tlike :: ts => Ok ((true, Tlike), (3, ts))
                                    | _ => Err
                                    end
                          | _ => Ok ((false, t), (prio, toks))
                          end);
      let neg := fst neg_t in
      let t := snd neg_t in
      let prio := fst st0 in
      let toks := snd st0 in
      do (o1, r1) <- pop_while prio o r;
      match t with
      (* :933-961 comparison, ANY and ALL *)
      | Top b =>
          if is_cmp b then
            match toks with
            | Tany :: Tlpar :: ts =>
                do (a, ts') <- parse_expr f and_or ts;
                match ts' with Trpar :: ts'' => Ok ((((inr (OQuant true), prio) :: o1), Aquant b a :: r1, true), ts'') | _ => Err end
            | Tall :: Tlpar :: ts =>
                do (a, ts') <- parse_expr f and_or ts;
                match ts' with Trpar :: ts'' => Ok ((((inr (OQuant false), prio) :: o1), Aquant b a :: r1, true), ts'') | _ => Err end
            | Tany :: _ | Tall :: _ => Err
            | _ => Ok (((inr (OBin b), prio) :: o1, r1, true), toks)
            end
          else Ok (((inr (OBin b), prio) :: o1, r1, true), toks)
      (* :962-987 BETWEEN *)
      | Tbetween =>
          do (x, ts) <- parse_expr f false toks;
          match ts with
          | Top BAnd :: ts' =>
              do (y, ts'') <- parse_expr f false ts';
              Ok (((inr (OBetween (negb neg)), prio) :: o1, A2 (OBin BAnd) x y :: r1, false), ts'')
          | _ => Err
          end
      (* :988-995 IS *)
      | Tis => match toks with
               | Tnot :: ts => Ok (((inr (OIs false), prio) :: o1, r1, false), ts)
               | _ => Ok (((inr (OIs true), prio) :: o1, r1, false), toks)
               end
      (* :996-1003 LIKE *)
      | Tlike => do (a, ts) <- parse_expr f and_or toks;
                 Ok (((inr (OLike (negb neg)), prio) :: o1, a :: r1, false), ts)
      (* :1004-1012 IN *)
      | Tin => match toks with
               | Tlpar :: ts => do (l, ts') <- parse_args f and_or Trpar false ts;
                                Ok (((inr (OIn (negb neg)), prio) :: o1, Aargs l :: r1, false), ts')
               | _ => Err
               end
      (* :1013-1020 AT TIMEZONE *)
      | Tat => match toks with
               | Ttimezone :: ts => do (a, ts') <- parse_expr f and_or ts;
                                    Ok (((inr OAt, prio) :: o1, a :: r1, false), ts')
               | _ => Err
               end
      (* :1028-1043 method *)
      | Tmethod => match toks with
                   | Tatom (XName n) :: Tlpar :: ts =>
                       do (l, ts') <- parse_args f and_or Trpar false ts;
                       Ok (((inr OMethod, prio) :: o1, Afunc n (Some l) :: r1, false), ts')
                   | Tatom (XName n) :: ts => Ok (((inr OMethod, prio) :: o1, Afunc n None :: r1, false), ts)
                   | _ => Err
                   end
      (* :1044-1051 index *)
      | Tlbr => do (a, ts) <- parse_expr f and_or toks;
                match ts with Trbr :: ts' => Ok (((inr OIdx, prio) :: o1, a :: r1, false), ts') | _ => Err end
      (* :1052-1067 field *)
      | Tdot => match toks with
                | Tatom (XStr s) :: ts => Ok (((inr OIdx, prio) :: o1, Aatom (XStr s) :: r1, false), ts)
                | Tatom (XName s) :: ts => Ok (((inr ODot, prio) :: o1, Aatom (XStr s) :: r1, false), ts)
                | _ => Err
                end
      (* '~' in the place of an operator: a unary node, :1068-1072 *)
      | Tinv => Ok (((inl OInv, prio) :: o1, r1, true), toks)
      | _ => Err
      end
  end

(** parse_expr.c:188-236 parse_expr_args *)
with parse_args (fuel : nat) (and_or : bool) (e : tok) (obj : bool) (toks : list tok) {struct fuel} : res (list ast * list tok) :=
  match fuel with
  | O => UB
  | S f => match toks with
           | t :: ts => if tok_eqb_end e t then Ok ([], ts) else args_loop f and_or e obj 0 toks
           | [] => args_loop f and_or e obj 0 toks
           end
  end
with args_loop (fuel : nat) (and_or : bool) (e : tok) (obj : bool) (count : nat) (toks : list tok) {struct fuel} : res (list ast * list tok) :=
  match fuel with
  | O => UB
  | S f =>
      do (a, ts) <- parse_expr f and_or toks;
      let count := S count in
      match ts with
      | t :: ts' =>
          if obj && Nat.odd count then
            match t with Tcolon => do (l, r) <- args_loop f and_or e obj count ts'; Ok (a :: l, r) | _ => Err end
          else if tok_eqb_end e t then Ok ([a], ts')
          else match t with Tcomma => do (l, r) <- args_loop f and_or e obj count ts'; Ok (a :: l, r) | _ => Err end
      | [] => Err
      end
  end

(** parse_expr.c:448-497 expr_case *)
with case_loop (fuel : nat) (and_or : bool) (e : option ast) (w : list (ast * ast)) (els : option ast) (toks : list tok) {struct fuel} : res (ast * list tok) :=
  match fuel with
  | O => UB
  | S f =>
      match toks with
      | Twhen :: ts =>
          do (c, ts1) <- parse_expr f and_or ts;
          match ts1 with
          | Tthen :: ts2 => do (x, ts3) <- parse_expr f and_or ts2; case_loop f and_or e (w ++ [(c, x)]) els ts3
          | _ => Err
          end
      | Telse :: ts =>
          match els with
          | Some _ => Err
          | None => do (x, ts1) <- parse_expr f and_or ts; case_loop f and_or e w (Some x) ts1
          end
      | Tend :: ts => match els, w with None, [] => Err | _, _ => Ok (Acase e w els, ts) end
      | _ => match e, els, w with
             | None, None, [] => do (x, ts1) <- parse_expr f and_or toks; case_loop f and_or (Some x) w els ts1
             | _, _, _ => Err
             end
      end
  end.

(** parse_expr of a text: the expression and the tokens behind it *)
Definition parse_expression (toks : list tok) : res (ast * list tok) :=
  parse_expr (8 * length toks + 8) true toks.
