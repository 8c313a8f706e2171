(** What an expression means: the grammar by levels of precedence, and the part of it that the parser
    reads. *)
From Verif Require Import Base ExprModel.

(** ** the standard grammar
    [Std n t a]: the tokens [t] are an expression of the level [n] or above with the tree [a].
    1 OR, 2 AND, 3 NOT, 4 = <> IS LIKE, 5 < <= > >= BETWEEN IN AT TIMEZONE, 6 |, 7 ^, 8 &, 9 << >>,
    10 + - ||, 11 * / %, 12 unary - and ~, 13 [index] .field ::method, 14 values.
    Operators of one level group from the left. *)
Definition level (o : binop) : Z :=
  match o with
  | BOr => 1 | BAnd => 2
  | BEq | BNeq => 4
  | BGte | BLte | BGt | BLt => 5
  | BBor => 6 | BBxor => 7 | BBand => 8 | BShl | BShr => 9
  | BAdd | BSub | BCat => 10
  | BMul | BDiv | BMod => 11
  end.
Definition nots (b : bool) : list tok := if b then [] else [Tnot].
Definition literal (t : list tok) : Prop := exists z r, t = Tatom (XInt z) :: r \/ t = Tatom (XReal z) :: r.
Definition quant (any : bool) : tok := if any then Tany else Tall.

Inductive Std : Z -> list tok -> ast -> Prop :=
| S_bin n o t1 l t2 r : n <= level o -> Std (level o) t1 l -> Std (level o + 1) t2 r ->
    Std n (t1 ++ Top o :: t2) (A2 (OBin o) l r)
| S_quant n o any t1 l t2 r : n <= level o -> is_cmp o = true -> Std (level o) t1 l -> Std 1 t2 r ->
    Std n (t1 ++ Top o :: quant any :: Tlpar :: t2 ++ [Trpar]) (A2 (OQuant any) l (Aquant o r))
| S_not n t a : n <= 3 -> Std 3 t a -> Std n (Tnot :: t) (A1 ONot a)
| S_is n b t1 l x : n <= 4 -> Std 4 t1 l ->
    Std n (t1 ++ Tis :: nots b ++ [Tatom x]) (A2 (OIs b) l (Aatom x))
| S_like n b t1 l t2 r : n <= 4 -> Std 4 t1 l -> Std 5 t2 r ->
    Std n (t1 ++ nots b ++ Tlike :: t2) (A2 (OLike b) l r)
| S_between n b t1 l tx x ty y : n <= 5 -> Std 5 t1 l -> Std 6 tx x -> Std 6 ty y ->
    Std n (t1 ++ nots b ++ Tbetween :: tx ++ Top BAnd :: ty) (A2 (OBetween b) l (A2 (OBin BAnd) x y))
| S_in n b t1 l t2 args : n <= 5 -> Std 5 t1 l -> StdArgs t2 args ->
    Std n (t1 ++ nots b ++ Tin :: Tlpar :: t2 ++ [Trpar]) (A2 (OIn b) l (Aargs args))
| S_at n t1 l t2 r : n <= 5 -> Std 5 t1 l -> Std 6 t2 r ->
    Std n (t1 ++ Tat :: Ttimezone :: t2) (A2 OAt l r)
| S_literal_int n z : n <= 12 -> Std n [Top BSub; Tatom (XInt z)] (Aatom (XInt (- z)))
| S_literal_real n z : n <= 12 -> Std n [Top BSub; Tatom (XReal z)] (Aatom (XReal (- z)))
| S_neg n t a : n <= 12 -> Std 12 t a -> (forall x, t <> [Tatom (XInt x)] /\ t <> [Tatom (XReal x)]) -> Std n (Top BSub :: t) (A1 ONeg a)
| S_inv n t a : n <= 12 -> Std 12 t a -> Std n (Tinv :: t) (A1 OInv a)
| S_index n t1 l t2 r : n <= 13 -> Std 13 t1 l -> Std 1 t2 r -> Std n (t1 ++ Tlbr :: t2 ++ [Trbr]) (A2 OIdx l r)
| S_dot_str n t1 l s : n <= 13 -> Std 13 t1 l -> Std n (t1 ++ [Tdot; Tatom (XStr s)]) (A2 OIdx l (Aatom (XStr s)))
| S_dot n t1 l s : n <= 13 -> Std 13 t1 l -> Std n (t1 ++ [Tdot; Tatom (XName s)]) (A2 ODot l (Aatom (XStr s)))
| S_method n t1 l f : n <= 13 -> Std 13 t1 l -> Std n (t1 ++ [Tmethod; Tatom (XName f)]) (A2 OMethod l (Afunc f None))
| S_method_args n t1 l f t2 args : n <= 13 -> Std 13 t1 l -> StdArgs t2 args ->
    Std n (t1 ++ Tmethod :: Tatom (XName f) :: Tlpar :: t2 ++ [Trpar]) (A2 OMethod l (Afunc f (Some args)))
| S_atom n x : n <= 14 -> Std n [Tatom x] (Aatom x)
| S_call n f t args : n <= 14 -> StdArgs t args -> Std n (Tatom (XName f) :: Tlpar :: t ++ [Trpar]) (Afunc f (Some args))
| S_paren n t a : n <= 14 -> Std 1 t a -> Std n (Tlpar :: t ++ [Trpar]) a
| S_array n t args : n <= 14 -> StdArgs t args -> Std n (Tlbr :: t ++ [Trbr]) (Aarr args)
| S_object n t args : n <= 14 -> StdFields t args -> Std n (Tlbrace :: t ++ [Trbrace]) (Aobj args)
| S_case n te e tw w tels els : n <= 14 -> StdOpt [] te e -> StdWhens tw w -> StdOpt [Telse] tels els -> (w <> [] \/ els <> None) ->
    Std n (Tcase :: te ++ tw ++ tels ++ [Tend]) (Acase e w els)
(** a list of expressions, the fields of an object, WHEN THEN, an expression that may be missing *)
with StdArgs : list tok -> list ast -> Prop :=
| SA_none : StdArgs [] []
| SA_some t a : Std 1 t a -> StdArgs t [a]
| SA_cons t a t2 b args : Std 1 t a -> StdArgs t2 (b :: args) -> StdArgs (t ++ Tcomma :: t2) (a :: b :: args)
with StdFields : list tok -> list ast -> Prop :=
| SF_none : StdFields [] []
| SF_some t1 a t2 b : Std 1 t1 a -> Std 1 t2 b -> StdFields (t1 ++ Tcolon :: t2) [a; b]
| SF_cons t1 a t2 b t3 c args : Std 1 t1 a -> Std 1 t2 b -> StdFields t3 (c :: args) ->
    StdFields (t1 ++ Tcolon :: t2 ++ Tcomma :: t3) (a :: b :: c :: args)
with StdWhens : list tok -> list (ast * ast) -> Prop :=
| SW_none : StdWhens [] []
| SW_cons t1 a t2 b t3 w : Std 1 t1 a -> Std 1 t2 b -> StdWhens t3 w ->
    StdWhens (Twhen :: t1 ++ Tthen :: t2 ++ t3) ((a, b) :: w)
with StdOpt : list tok -> list tok -> option ast -> Prop :=
| SO_none p : StdOpt p [] None
| SO_some p t a : Std 1 t a -> StdOpt p (p ++ t) (Some a).

(** ** the part of it that is read: [Sup m n t a c]
    The rules are those of [Std] with these restrictions:
    - the last operand of LIKE and AT TIMEZONE takes every operator behind it, that of BETWEEN every one
      but AND and OR, and no operator may follow ANY (...) and ALL (...): [c] says which operators would
      be taken, such an expression must not be the left operand of them;
    - NOT, - and ~ stand before a value or its index, field or method, not before each other, a list
      in brackets or (for - before a method) a number;
    - inside of the operands of BETWEEN, AND and OR do not occur in parentheses, arguments and CASE
      ([m] = false). *)
Inductive takes := TakesNone | TakesAll | TakesNoLogic.
Definition may_follow (c : takes) (t : tok) : Prop :=
  match c with TakesNone => True | TakesAll => False | TakesNoLogic => is_logic t = true end.
(** the lowest level of a whole expression *)
Definition lowest (m : bool) : Z := if m then 1 else 3.

(** the first token of the operator [t ++ nots] *)
Definition first (b : bool) (t : tok) : tok := if b then t else Tnot.

Inductive Sup : bool -> Z -> list tok -> ast -> takes -> Prop :=
| E_bin m n o t1 l c1 t2 r c2 : n <= level o -> (m = false -> is_logic (Top o) = false) ->
    Sup m (level o) t1 l c1 -> may_follow c1 (Top o) -> Sup m (level o + 1) t2 r c2 ->
    Sup m n (t1 ++ Top o :: t2) (A2 (OBin o) l r) c2
| E_quant m n o any t1 l c1 t2 r c2 : n <= level o -> is_cmp o = true -> Sup m (level o) t1 l c1 -> may_follow c1 (Top o) -> Sup m (lowest m) t2 r c2 ->
    Sup m n (t1 ++ Top o :: quant any :: Tlpar :: t2 ++ [Trpar]) (A2 (OQuant any) l (Aquant o r)) TakesAll
| E_not m n t a : n <= 3 -> Val m t a -> Sup m n (Tnot :: t) (A1 ONot a) TakesNone
| E_is m n b t1 l c1 x : n <= 4 -> Sup m 4 t1 l c1 -> may_follow c1 Tis ->
    Sup m n (t1 ++ Tis :: nots b ++ [Tatom x]) (A2 (OIs b) l (Aatom x)) TakesNone
| E_like m n b t1 l c1 t2 r c2 : n <= 4 -> Sup m 4 t1 l c1 -> may_follow c1 (first b Tlike) -> Sup m 5 t2 r c2 ->
    Sup m n (t1 ++ nots b ++ Tlike :: t2) (A2 (OLike b) l r) TakesAll
| E_between m n b t1 l c1 tx x cx ty y cy : n <= 5 -> Sup m 5 t1 l c1 -> may_follow c1 (first b Tbetween) ->
    Sup false 6 tx x cx -> Sup false 6 ty y cy ->
    Sup m n (t1 ++ nots b ++ Tbetween :: tx ++ Top BAnd :: ty) (A2 (OBetween b) l (A2 (OBin BAnd) x y)) TakesNoLogic
| E_in m n b t1 l c1 t2 args : n <= 5 -> Sup m 5 t1 l c1 -> may_follow c1 (first b Tin) -> SupArgs m t2 args ->
    Sup m n (t1 ++ nots b ++ Tin :: Tlpar :: t2 ++ [Trpar]) (A2 (OIn b) l (Aargs args)) TakesNone
| E_at m n t1 l c1 t2 r c2 : n <= 5 -> Sup m 5 t1 l c1 -> may_follow c1 Tat -> Sup m 6 t2 r c2 ->
    Sup m n (t1 ++ Tat :: Ttimezone :: t2) (A2 OAt l r) TakesAll
| E_literal_int m n z : n <= 12 -> Sup m n [Top BSub; Tatom (XInt z)] (Aatom (XInt (- z))) TakesNone
| E_literal_real m n z : n <= 12 -> Sup m n [Top BSub; Tatom (XReal z)] (Aatom (XReal (- z))) TakesNone
| E_neg m n t a : n <= 12 -> Val m t a -> ~ literal t -> Sup m n (Top BSub :: t) (A1 ONeg a) TakesNone
| E_inv m n t a : n <= 12 -> Val m t a -> Sup m n (Tinv :: t) (A1 OInv a) TakesNone
| E_val m n t a : n <= 13 -> Val m t a -> Sup m n t a TakesNone
| E_array m n t a : n <= 13 -> ArrVal m t a -> Sup m n t a TakesNone
(** a value with its indexes, fields and methods: [Val] begins with a value, [ArrVal] with a list in
    brackets *)
with Val : bool -> list tok -> ast -> Prop :=
| V_atom m x : Val m [Tatom x] (Aatom x)
| V_call m f t args : SupArgs m t args -> Val m (Tatom (XName f) :: Tlpar :: t ++ [Trpar]) (Afunc f (Some args))
| V_paren m t a c : Sup m (lowest m) t a c -> Val m (Tlpar :: t ++ [Trpar]) a
| V_object m t args : SupFields m t args -> Val m (Tlbrace :: t ++ [Trbrace]) (Aobj args)
| V_case m te e tw w tels els : SupOpt m [] te e -> SupWhens m tw w -> SupOpt m [Telse] tels els -> (w <> [] \/ els <> None) ->
    Val m (Tcase :: te ++ tw ++ tels ++ [Tend]) (Acase e w els)
| V_post m t1 l t2 (k : ast -> ast) : Val m t1 l -> Post m t2 k -> Val m (t1 ++ t2) (k l)
with ArrVal : bool -> list tok -> ast -> Prop :=
| AV_array m t args : SupArgs m t args -> ArrVal m (Tlbr :: t ++ [Trbr]) (Aarr args)
| AV_post m t1 l t2 (k : ast -> ast) : ArrVal m t1 l -> Post m t2 k -> ArrVal m (t1 ++ t2) (k l)
with Post : bool -> list tok -> (ast -> ast) -> Prop :=
| P_index m t2 r c : Sup m (lowest m) t2 r c -> Post m (Tlbr :: t2 ++ [Trbr]) (fun l => A2 OIdx l r)
| P_dot_str m s : Post m [Tdot; Tatom (XStr s)] (fun l => A2 OIdx l (Aatom (XStr s)))
| P_dot m s : Post m [Tdot; Tatom (XName s)] (fun l => A2 ODot l (Aatom (XStr s)))
| P_method m f : Post m [Tmethod; Tatom (XName f)] (fun l => A2 OMethod l (Afunc f None))
| P_method_args m f t2 args : SupArgs m t2 args ->
    Post m (Tmethod :: Tatom (XName f) :: Tlpar :: t2 ++ [Trpar]) (fun l => A2 OMethod l (Afunc f (Some args)))
with SupArgs : bool -> list tok -> list ast -> Prop :=
| EA_none m : SupArgs m [] []
| EA_some m t a c : Sup m (lowest m) t a c -> SupArgs m t [a]
| EA_cons m t a c t2 b args : Sup m (lowest m) t a c -> SupArgs m t2 (b :: args) -> SupArgs m (t ++ Tcomma :: t2) (a :: b :: args)
with SupFields : bool -> list tok -> list ast -> Prop :=
| EF_none m : SupFields m [] []
| EF_some m t1 a c1 t2 b c2 : Sup m (lowest m) t1 a c1 -> Sup m (lowest m) t2 b c2 -> SupFields m (t1 ++ Tcolon :: t2) [a; b]
| EF_cons m t1 a c1 t2 b c2 t3 c args : Sup m (lowest m) t1 a c1 -> Sup m (lowest m) t2 b c2 -> SupFields m t3 (c :: args) ->
    SupFields m (t1 ++ Tcolon :: t2 ++ Tcomma :: t3) (a :: b :: c :: args)
with SupWhens : bool -> list tok -> list (ast * ast) -> Prop :=
| EW_none m : SupWhens m [] []
| EW_cons m t1 a c1 t2 b c2 t3 w : Sup m (lowest m) t1 a c1 -> Sup m (lowest m) t2 b c2 -> SupWhens m t3 w ->
    SupWhens m (Twhen :: t1 ++ Tthen :: t2 ++ t3) ((a, b) :: w)
with SupOpt : bool -> list tok -> list tok -> option ast -> Prop :=
| EO_none m p : SupOpt m p [] None
| EO_some m p t a c : Sup m (lowest m) t a c -> SupOpt m p (p ++ t) (Some a).

(** what may stand behind an expression: the end or a token that is no operator and no value *)
Definition stops (rest : list tok) : Prop := match rest with [] => True | t :: _ => priority t = 0 end.
