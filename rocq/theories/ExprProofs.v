(** The parser reads what the grammar says. *)
From Verif Require Import Base ExprModel ExprSpec.

Scheme Sup_ind' := Minimality for Sup Sort Prop
  with Val_ind' := Minimality for Val Sort Prop
  with ArrVal_ind' := Minimality for ArrVal Sort Prop
  with Post_ind' := Minimality for Post Sort Prop
  with SupArgs_ind' := Minimality for SupArgs Sort Prop
  with SupFields_ind' := Minimality for SupFields Sort Prop
  with SupWhens_ind' := Minimality for SupWhens Sort Prop
  with SupOpt_ind' := Minimality for SupOpt Sort Prop.
Combined Scheme Sup_mut from Sup_ind', Val_ind', ArrVal_ind', Post_ind', SupArgs_ind', SupFields_ind', SupWhens_ind', SupOpt_ind'.

(** ** one step of every function *)
Lemma parse_expr_S f m t : parse_expr (S f) m t = expr_loop f m [] [] true t.
Proof. reflexivity. Qed.
Lemma loop_S f m o r u toks : expr_loop (S f) m o r u toks =
  match toks with
  | [] => finish o r []
  | t :: ts =>
      if negb m && is_logic t then finish o r toks
      else if priority t =? 0 then finish o r toks
      else if priority t =? priority_value then
        do (a, ts') <- parse_value f m t ts; expr_loop f m o (a :: r) false ts'
      else if u then
        do (st, ts') <- parse_unary f m o r t ts; expr_loop f m (fst st) (snd st) false ts'
      else
        do (st, ts') <- parse_op f m o r t (priority t) ts;
        let '(o', r', u') := st in expr_loop f m o' r' u' ts'
  end.
Proof. reflexivity. Qed.

(** ** the stacks *)
Definition cp (n : Z) : Z := if n <=? 3 then n else n - 1.
Definition top_lt (o : stack) (q : Z) : Prop := match o with [] => True | h :: _ => snd h < q end.
Lemma cp_mono n n' : n <= n' -> cp n <= cp n'.
Proof. unfold cp. intros. destruct (n <=? 3) eqn:?, (n' <=? 3) eqn:?; lia. Qed.
Lemma cp_level o : cp (level o) = bin_prio o.
Proof. now destruct o. Qed.
Lemma cp_next o : bin_prio o < cp (level o + 1).
Proof. now destruct o. Qed.
Lemma top_lt_mono o q q' : q <= q' -> top_lt o q -> top_lt o q'.
Proof. destruct o; cbn; [easy|lia]. Qed.
Lemma pop_none q o r : top_lt o q -> pop_while q o r = Ok (o, r).
Proof. destruct o; cbn; [easy|]. intros H. rewrite (proj2 (Z.leb_gt _ _) H). easy. Qed.
Definition reduces (ps : stack) (rs : list ast) (a : ast) : Prop := forall r, pop_all ps (rs ++ r) = Ok (a :: r).
Lemma pop_some q ps : forall o s r a, Forall (fun h => q <= snd h) ps -> top_lt o q -> pop_all ps s = Ok (a :: r) -> pop_while q (ps ++ o) s = Ok (o, a :: r).
Proof.
  induction ps as [|h ps IH]; intros o s r a F T P; cbn in *.
  - injection P as ->. now apply pop_none.
  - inversion F; subst. rewrite (proj2 (Z.leb_le _ _) H1). destruct (expr_pop h s) as [s'| |]; try discriminate. cbn in *. now apply IH.
Qed.
Lemma pop_all_app p1 : forall p2 s, pop_all (p1 ++ p2) s = (do s' <- pop_all p1 s; pop_all p2 s').
Proof. induction p1 as [|h p1 IH]; intros p2 s; cbn; [easy|]. destruct (expr_pop h s); cbn; [apply IH|easy|easy]. Qed.
Lemma reduces_bin ps rs o q r l : reduces ps rs r -> reduces (ps ++ [(inr o, q)]) (rs ++ [l]) (A2 o l r).
Proof. intros R s. rewrite pop_all_app, <- app_assoc. cbn [app]. rewrite R. reflexivity. Qed.
Lemma reduces_un ps rs o q r : reduces ps rs r -> reduces (ps ++ [(inl o, q)]) rs (A1 o r).
Proof. intros R s. rewrite pop_all_app. rewrite R. reflexivity. Qed.
Lemma reduces_two o q r l : reduces [(inr o, q)] [r; l] (A2 o l r).
Proof. intros s. reflexivity. Qed.
Lemma reduces_one a : reduces [] [a] a.
Proof. intros s. reflexivity. Qed.

(** ** what may follow *)
Definition stop (m : bool) (rest : list tok) : Prop :=
  match rest with [] => True | t :: _ => priority t = 0 \/ (m = false /\ is_logic t = true) end.
Definition follows (m : bool) (c : takes) (rest : list tok) : Prop :=
  match rest with
  | [] => True
  | t :: _ => t <> Tlpar /\
      match c with
      | TakesNone => True
      | TakesAll => priority t = 0 \/ (m = false /\ is_logic t = true)
      | TakesNoLogic => priority t = 0 \/ is_logic t = true
      end
  end.
Lemma stop_follows m c rest : stop m rest -> follows m c rest.
Proof.
  destruct rest as [|t ts]; [easy|]. cbn. intros [H|(E & H)].
  - split; [intros ->; discriminate|]. destruct c; auto.
  - split; [intros ->; discriminate|]. destruct c; auto.
Qed.
Lemma follow_op m c t r : may_follow c t -> t <> Tlpar -> follows m c (t :: r).
Proof. intros F N. split; [exact N|]. destruct c; cbn in F; [easy|easy|auto]. Qed.
Definition no_par (rest : list tok) : Prop := match rest with Tlpar :: _ => False | _ => True end.
Lemma follows_no_par m c rest : follows m c rest -> no_par rest.
Proof. destruct rest as [|t ts]; [easy|]. cbn. intros (N & _). destruct t; easy. Qed.
Lemma finish_stop f m o r u rest : stop m rest -> expr_loop (S f) m o r u rest = finish o r rest.
Proof.
  intros H. rewrite loop_S. destruct rest as [|t ts]; [easy|]. cbn in H. destruct H as [H|(-> & H)].
  - rewrite H. now destruct (negb m && is_logic t).
  - rewrite H. reflexivity.
Qed.

(** ** the first token *)
Definition opens (t : list tok) : Prop := match t with x :: _ => priority x <> 0 | [] => False end.
Definition opens_value (t : list tok) : Prop := match t with x :: _ => priority x = priority_value | [] => False end.
Lemma opens_app t r : opens t -> opens (t ++ r).
Proof. now destruct t. Qed.
Lemma opens_value_app t r : opens_value t -> opens_value (t ++ r).
Proof. now destruct t. Qed.
Lemma opens_of_value t : opens_value t -> opens t.
Proof. destruct t; [easy|]. cbn. intros ->. discriminate. Qed.
Lemma sup_opens :
  (forall m n t a c, Sup m n t a c -> opens t) /\
  (forall m t a, Val m t a -> opens_value t) /\
  (forall m t a, ArrVal m t a -> exists r, t = Tlbr :: r) /\
  (forall m t k, Post m t k -> True) /\
  (forall m t a, SupArgs m t a -> a <> [] -> opens t) /\
  (forall m t a, SupFields m t a -> a <> [] -> opens t) /\
  (forall m t w, SupWhens m t w -> True) /\
  (forall m p t a, SupOpt m p t a -> True).
Proof.
  apply Sup_mut; intros; try exact I; try (now apply opens_app); try (cbn; easy); auto using opens_of_value.
  - destruct H1 as (r & ->). easy.
  - apply opens_value_app. assumption.
  - now exists (t ++ [Trbr]).
  - destruct H0 as (r & ->). now eexists.
Qed.

(** ** the statements of the induction *)
Definition P_sup (m : bool) (n : Z) (t : list tok) (a : ast) (c : takes) : Prop :=
  exists k ps rs u, (k <= length t)%nat /\ Forall (fun h => cp n <= snd h) ps /\ reduces ps rs a /\
    forall f o r rest, (8 * length t <= f)%nat -> top_lt o (cp n) -> follows m c rest ->
      expr_loop f m o r true (t ++ rest) = expr_loop (f - k) m (ps ++ o) (rs ++ r) u rest /\
      (u = false \/ stop m rest).
Definition P_val (m : bool) (t : list tok) (a : ast) : Prop :=
  exists k ps rs, (k <= length t)%nat /\ Forall (fun h => 12 <= snd h) ps /\ reduces ps rs a /\
    forall f o r u rest, (8 * length t <= f)%nat -> top_lt o 12 -> no_par rest ->
      expr_loop f m o r u (t ++ rest) = expr_loop (f - k) m (ps ++ o) (rs ++ r) false rest.
Definition P_arr (m : bool) (t : list tok) (a : ast) : Prop :=
  exists k ps rs, (k <= length t)%nat /\ Forall (fun h => 12 <= snd h) ps /\ reduces ps rs a /\
    forall f o r rest, (8 * length t <= f)%nat -> top_lt o 12 -> no_par rest ->
      expr_loop f m o r true (t ++ rest) = expr_loop (f - k) m (ps ++ o) (rs ++ r) false rest.
Definition P_post (m : bool) (t : list tok) (k : ast -> ast) : Prop :=
  exists o2 x, t <> [] /\ (match t with y :: _ => y <> Tlpar | [] => True end) /\ (forall l, k l = A2 o2 l x) /\
    forall f ps o s r l rest, Forall (fun h => 12 <= snd h) ps -> pop_all ps s = Ok (l :: r) -> top_lt o 12 ->
      (8 * length t <= f)%nat -> no_par rest ->
      expr_loop f m (ps ++ o) s false (t ++ rest) = expr_loop (f - 1) m ((inr o2, 12) :: o) (x :: l :: r) false rest.
Definition P_args (m : bool) (t : list tok) (args : list ast) : Prop :=
  (args <> [] -> forall f e count rest, (8 * length t + 3 <= f)%nat -> e = Trpar \/ e = Trbr ->
    args_loop f m e false count (t ++ e :: rest) = Ok (args, rest)) /\
  forall f e rest, (8 * length t + 4 <= f)%nat -> e = Trpar \/ e = Trbr ->
    parse_args f m e false (t ++ e :: rest) = Ok (args, rest).
Definition P_fields (m : bool) (t : list tok) (args : list ast) : Prop :=
  (args <> [] -> forall f count rest, (8 * length t + 3 <= f)%nat -> Nat.odd count = false ->
    args_loop f m Trbrace true count (t ++ Trbrace :: rest) = Ok (args, rest)) /\
  forall f rest, (8 * length t + 4 <= f)%nat ->
    parse_args f m Trbrace true (t ++ Trbrace :: rest) = Ok (args, rest).
Definition P_whens (m : bool) (t : list tok) (w : list (ast * ast)) : Prop :=
  exists k, (k <= length t)%nat /\ (match t with y :: _ => priority y = 0 | [] => True end) /\
    forall f e w0 rest, (8 * length t <= f)%nat -> stops rest ->
      case_loop f m e w0 None (t ++ rest) = case_loop (f - k) m e (w0 ++ w) None rest.
Definition P_opt (m : bool) (p t : list tok) (e : option ast) : Prop :=
  match e with
  | None => t = []
  | Some a => exists t', t = p ++ t' /\ opens t' /\
      forall f rest, (8 * length t' + 2 <= f)%nat -> stop m rest -> parse_expr f m (t' ++ rest) = Ok (a, rest)
  end.

Lemma stops_stop m rest : stops rest -> stop m rest.
Proof. destruct rest; cbn; auto. Qed.

(** a whole expression *)
Lemma whole m n t a c : P_sup m n t a c -> forall f rest, (8 * length t + 2 <= f)%nat -> stop m rest -> parse_expr f m (t ++ rest) = Ok (a, rest).
Proof.
  intros (k & ps & rs & u & K & F & R & L) f rest Hf S. destruct f as [|f]; [exfalso; lia|]. rewrite parse_expr_S.
  destruct (L f [] [] rest ltac:(lia) I (stop_follows _ _ _ S)) as (E & _). rewrite E. clear E L.
  destruct (f - k)%nat as [|g] eqn:G; [exfalso; lia|]. rewrite finish_stop by exact S. unfold finish. rewrite !app_nil_r.
  pose proof (R []) as R0. rewrite app_nil_r in R0. rewrite R0. reflexivity.
Qed.

(** ** steps of the loop *)
Lemma step_value f m o r u t ts : priority t = priority_value -> (negb m && is_logic t = false) ->
  expr_loop (S f) m o r u (t :: ts) = (do (a, ts') <- parse_value f m t ts; expr_loop f m o (a :: r) false ts').
Proof. intros P L. rewrite loop_S, L, P. reflexivity. Qed.
Definition is_op (m : bool) (t : tok) : Prop := priority t <> 0 /\ priority t <> priority_value /\ negb m && is_logic t = false.
Lemma step_op f m o r t ts : is_op m t ->
  expr_loop (S f) m o r false (t :: ts) =
  (do (st, ts') <- parse_op f m o r t (priority t) ts; let '(o', r', u') := st in expr_loop f m o' r' u' ts').
Proof. intros (P & V & L). rewrite loop_S, L. rewrite (proj2 (Z.eqb_neq _ _) P), (proj2 (Z.eqb_neq _ _) V). reflexivity. Qed.
Lemma step_unary f m o r t ts : is_op m t ->
  expr_loop (S f) m o r true (t :: ts) =
  (do (st, ts') <- parse_unary f m o r t ts; expr_loop f m (fst st) (snd st) false ts').
Proof. intros (P & V & L). rewrite loop_S, L. rewrite (proj2 (Z.eqb_neq _ _) P), (proj2 (Z.eqb_neq _ _) V). reflexivity. Qed.
Lemma is_op_nologic m t : is_logic t = false -> priority t <> 0 -> priority t <> priority_value -> is_op m t.
Proof. intros L P V. repeat split; auto. rewrite L. now destruct m. Qed.
Lemma is_op_bin m o : (m = false -> is_logic (Top o) = false) -> is_op m (Top o).
Proof. intros L. split; [now destruct o|]. split; [now destruct o|]. destruct m; [easy|]. now rewrite L. Qed.

(** parse_op of every operator *)
Definition op_bin b (o1 : stack) (r1 : list ast) prio toks f m : res ((stack * list ast * bool) * list tok) :=
  if is_cmp b then
    match toks with
    | Tany :: Tlpar :: ts =>
        do (a, ts') <- parse_expr f m ts;
        match ts' with Trpar :: ts'' => Ok ((((inr (OQuant true), prio) :: o1), Aquant b a :: r1, true), ts'') | _ => Err end
    | Tall :: Tlpar :: ts =>
        do (a, ts') <- parse_expr f m ts;
        match ts' with Trpar :: ts'' => Ok ((((inr (OQuant false), prio) :: o1), Aquant b a :: r1, true), ts'') | _ => Err end
    | Tany :: _ | Tall :: _ => Err
    | _ => Ok (((inr (OBin b), prio) :: o1, r1, true), toks)
    end
  else Ok (((inr (OBin b), prio) :: o1, r1, true), toks).
Lemma parse_op_bin f m o r b prio toks : parse_op (S f) m o r (Top b) prio toks =
  (do (o1, r1) <- pop_while prio o r; op_bin b o1 r1 prio toks f m).
Proof. reflexivity. Qed.
Lemma op_bin_plain b o1 r1 prio toks f m : opens toks -> op_bin b o1 r1 prio toks f m = Ok (((inr (OBin b), prio) :: o1, r1, true), toks).
Proof. unfold op_bin. destruct (is_cmp b); [|easy]. destruct toks as [|t ts]; [easy|]. cbn. destruct t; easy. Qed.
Lemma parse_op_is f m o r prio toks : parse_op (S f) m o r Tis prio toks =
  (do (o1, r1) <- pop_while prio o r;
   match toks with
   | Tnot :: ts => Ok (((inr (OIs false), prio) :: o1, r1, false), ts)
   | _ => Ok (((inr (OIs true), prio) :: o1, r1, false), toks)
   end).
Proof. reflexivity. Qed.
Lemma parse_op_like f m o r b ts : parse_op (S f) m o r (first b Tlike) (priority (first b Tlike)) (if b then ts else Tlike :: ts) =
  (do (o1, r1) <- pop_while 3 o r;
   do (a, ts') <- parse_expr f m ts; Ok (((inr (OLike b), 3) :: o1, a :: r1, false), ts')).
Proof. destruct b; reflexivity. Qed.
Lemma parse_op_between f m o r b ts : parse_op (S f) m o r (first b Tbetween) (priority (first b Tbetween)) (if b then ts else Tbetween :: ts) =
  (do (o1, r1) <- pop_while 4 o r;
   do (x, ts) <- parse_expr f false ts;
   match ts with
   | Top BAnd :: ts' =>
       do (y, ts'') <- parse_expr f false ts';
       Ok (((inr (OBetween b), 4) :: o1, A2 (OBin BAnd) x y :: r1, false), ts'')
   | _ => Err
   end).
Proof. destruct b; reflexivity. Qed.
Lemma parse_op_in f m o r b ts : parse_op (S f) m o r (first b Tin) (priority (first b Tin)) (if b then Tlpar :: ts else Tin :: Tlpar :: ts) =
  (do (o1, r1) <- pop_while 4 o r;
   do (l, ts') <- parse_args f m Trpar false ts; Ok (((inr (OIn b), 4) :: o1, Aargs l :: r1, false), ts')).
Proof. destruct b; reflexivity. Qed.
Lemma parse_op_at f m o r ts : parse_op (S f) m o r Tat 4 (Ttimezone :: ts) =
  (do (o1, r1) <- pop_while 4 o r;
   do (a, ts') <- parse_expr f m ts; Ok (((inr OAt, 4) :: o1, a :: r1, false), ts')).
Proof. reflexivity. Qed.
Lemma parse_op_lbr f m o r ts : parse_op (S f) m o r Tlbr 12 ts =
  (do (o1, r1) <- pop_while 12 o r;
   do (a, ts') <- parse_expr f m ts;
   match ts' with Trbr :: ts'' => Ok (((inr OIdx, 12) :: o1, a :: r1, false), ts'') | _ => Err end).
Proof. reflexivity. Qed.
Lemma parse_op_dot_str f m o r s ts : parse_op (S f) m o r Tdot 12 (Tatom (XStr s) :: ts) =
  (do (o1, r1) <- pop_while 12 o r; Ok (((inr OIdx, 12) :: o1, Aatom (XStr s) :: r1, false), ts)).
Proof. reflexivity. Qed.
Lemma parse_op_dot f m o r s ts : parse_op (S f) m o r Tdot 12 (Tatom (XName s) :: ts) =
  (do (o1, r1) <- pop_while 12 o r; Ok (((inr ODot, 12) :: o1, Aatom (XStr s) :: r1, false), ts)).
Proof. reflexivity. Qed.
Lemma parse_op_method f m o r s ts : no_par ts -> parse_op (S f) m o r Tmethod 12 (Tatom (XName s) :: ts) =
  (do (o1, r1) <- pop_while 12 o r; Ok (((inr OMethod, 12) :: o1, Afunc s None :: r1, false), ts)).
Proof. destruct ts as [|t ts]; [reflexivity|]. intros H. destruct t; cbn in H; try easy; reflexivity. Qed.
Lemma parse_op_method_args f m o r s ts : parse_op (S f) m o r Tmethod 12 (Tatom (XName s) :: Tlpar :: ts) =
  (do (o1, r1) <- pop_while 12 o r;
   do (l, ts') <- parse_args f m Trpar false ts; Ok (((inr OMethod, 12) :: o1, Afunc s (Some l) :: r1, false), ts')).
Proof. reflexivity. Qed.
Lemma parse_unary_not f m o r ts : parse_unary (S f) m o r Tnot ts = (do (o', r') <- pop_while 11 o r; Ok (((inl ONot, 11) :: o', r'), ts)).
Proof. reflexivity. Qed.
Lemma parse_unary_inv f m o r ts : parse_unary (S f) m o r Tinv ts = (do (o', r') <- pop_while 11 o r; Ok (((inl OInv, 11) :: o', r'), ts)).
Proof. reflexivity. Qed.
Lemma parse_unary_neg f m o r ts : ~ literal ts -> parse_unary (S f) m o r (Top BSub) ts = (do (o', r') <- pop_while 11 o r; Ok (((inl ONeg, 11) :: o', r'), ts)).
Proof.
  intros H. destruct ts as [|t ts]; [reflexivity|]. destruct t; try reflexivity. destruct x; try reflexivity.
  - exfalso. apply H. exists z, ts. now left.
  - exfalso. apply H. exists z, ts. now right.
Qed.
Lemma parse_unary_lbr f m o r ts : parse_unary (S f) m o r Tlbr ts = (do (l, ts) <- parse_args f m Trbr false ts; Ok ((o, Aarr l :: r), ts)).
Proof. reflexivity. Qed.
Lemma parse_value_lpar f m ts : parse_value (S f) m Tlpar ts = (do (a, ts) <- parse_expr f m ts; match ts with Trpar :: ts' => Ok (a, ts') | _ => Err end).
Proof. reflexivity. Qed.
Lemma parse_value_obj f m ts : parse_value (S f) m Tlbrace ts = (do (l, ts) <- parse_args f m Trbrace true ts; Ok (Aobj l, ts)).
Proof. reflexivity. Qed.
Lemma parse_value_case f m ts : parse_value (S f) m Tcase ts = case_loop f m None [] None ts.
Proof. reflexivity. Qed.
Lemma parse_value_atom f m x ts : no_par ts -> parse_value (S f) m (Tatom x) ts = Ok (Aatom x, ts).
Proof. intros H. destruct x; try reflexivity. destruct ts as [|t ts]; [reflexivity|]. destruct t; cbn in H; try easy; reflexivity. Qed.
Lemma parse_value_call f m n ts : parse_value (S f) m (Tatom (XName n)) (Tlpar :: ts) = (do (l, ts') <- parse_args f m Trpar false ts; Ok (Afunc n (Some l), ts')).
Proof. reflexivity. Qed.
Lemma args_loop_S f m e obj count toks : args_loop (S f) m e obj count toks =
  (do (a, ts) <- parse_expr f m toks;
   match ts with
   | t :: ts' =>
       if obj && Nat.odd (S count) then
         match t with Tcolon => do (l, r) <- args_loop f m e obj (S count) ts'; Ok (a :: l, r) | _ => Err end
       else if tok_eqb_end e t then Ok ([a], ts')
       else match t with Tcomma => do (l, r) <- args_loop f m e obj (S count) ts'; Ok (a :: l, r) | _ => Err end
   | [] => Err
   end).
Proof. reflexivity. Qed.
Lemma parse_args_S f m e obj toks : parse_args (S f) m e obj toks =
  match toks with
  | t :: ts => if tok_eqb_end e t then Ok ([], ts) else args_loop f m e obj 0 toks
  | [] => args_loop f m e obj 0 toks
  end.
Proof. reflexivity. Qed.
Lemma case_when f m e w els ts : case_loop (S f) m e w els (Twhen :: ts) =
  (do (c, ts1) <- parse_expr f m ts;
   match ts1 with
   | Tthen :: ts2 => do (x, ts3) <- parse_expr f m ts2; case_loop f m e (w ++ [(c, x)]) els ts3
   | _ => Err
   end).
Proof. reflexivity. Qed.
Lemma case_else f m e w ts : case_loop (S f) m e w None (Telse :: ts) = (do (x, ts1) <- parse_expr f m ts; case_loop f m e w (Some x) ts1).
Proof. reflexivity. Qed.
Lemma case_end f m e w els ts : (w <> [] \/ els <> None) -> case_loop (S f) m e w els (Tend :: ts) = Ok (Acase e w els, ts).
Proof. intros H. cbn. destruct els; [easy|]. destruct w; [|easy]. now destruct H. Qed.
Lemma case_expr f m toks : opens toks -> case_loop (S f) m None [] None toks = (do (x, ts1) <- parse_expr f m toks; case_loop f m (Some x) [] None ts1).
Proof. destruct toks as [|t ts]; [easy|]. cbn [opens]. intros H. destruct t; cbn in H; try easy; reflexivity. Qed.

(** ** the induction *)
Ltac len := repeat (cbn [length] in *; rewrite ?app_length in * ); lia.
Ltac fuel f := destruct f as [|f]; [exfalso; len|].
Lemma forall_weak q q' (ps : stack) : q' <= q -> Forall (fun h => q <= snd h) ps -> Forall (fun h => q' <= snd h) ps.
Proof. intros H F. induction F; constructor; [lia|assumption]. Qed.
Lemma cp_le13 n : n <= 13 -> cp n <= 12.
Proof. unfold cp. intros. destruct (n <=? 3) eqn:?; lia. Qed.
Lemma cp_le12 n : n <= 12 -> cp n <= 11.
Proof. unfold cp. intros. destruct (n <=? 3) eqn:?; lia. Qed.
Lemma cp_le3 n : n <= 3 -> cp n <= 3.
Proof. unfold cp. intros. destruct (n <=? 3) eqn:?; lia. Qed.

(** the left operand and its operator *)
Lemma left_done m n q t1 l c1 : P_sup m n t1 l c1 -> cp n = q ->
  exists k, (k <= length t1)%nat /\ forall f o r tk ts, (8 * length t1 <= f)%nat -> top_lt o q -> follows m c1 (tk :: ts) -> is_op m tk ->
    exists ps s, expr_loop f m o r true (t1 ++ tk :: ts) = expr_loop (f - k) m (ps ++ o) s false (tk :: ts) /\
      pop_while q (ps ++ o) s = Ok (o, l :: r).
Proof.
  intros (k & ps & rs & u & K & F & R & L) Q. exists k. split; [exact K|]. intros f o r tk ts Hf T Fo (P0 & P9 & Lg).
  destruct (L f o r (tk :: ts) Hf ltac:(now rewrite Q) Fo) as (E & U). exists ps, (rs ++ r). rewrite E. split.
  - destruct U as [->|U]; [reflexivity|]. exfalso. cbn in U. destruct U as [U|(-> & U)]; [easy|]. rewrite U in Lg. discriminate.
  - apply pop_some; [now rewrite <- Q|exact T|apply R].
Qed.

Lemma ind_bin m n o t1 l c1 t2 r c2 : n <= level o -> (m = false -> is_logic (Top o) = false) ->
  P_sup m (level o) t1 l c1 -> may_follow c1 (Top o) -> opens t2 -> P_sup m (level o + 1) t2 r c2 ->
  P_sup m n (t1 ++ Top o :: t2) (A2 (OBin o) l r) c2.
Proof.
  intros N M L1 MF O2 (k2 & ps2 & rs2 & u2 & K2 & F2 & R2 & L2).
  destruct (left_done _ _ _ _ _ _ L1 (cp_level o)) as (k1 & K1 & D).
  pose proof (cp_mono _ _ N) as CM. rewrite cp_level in CM. pose proof (cp_next o) as CN.
  exists (k1 + 1 + k2)%nat, (ps2 ++ [(inr (OBin o), bin_prio o)]), (rs2 ++ [l]), u2.
  split; [len|]. split; [apply Forall_app; split; [apply forall_weak with (2 := F2); lia|constructor; [cbn; lia|constructor]]|].
  split; [now apply reduces_bin|]. intros f st r0 rest Hf T Fo.
  destruct (D f st r0 (Top o) (t2 ++ rest)) as (ps & s & E & PW); [len|eapply top_lt_mono; [|exact T]; lia|now apply follow_op|now apply is_op_bin|].
  rewrite <- app_assoc. cbn [app]. rewrite E. clear E.
  destruct (f - k1)%nat as [|g] eqn:G; [exfalso; len|]. rewrite step_op by now apply is_op_bin.
  destruct g as [|g']; [exfalso; len|]. rewrite parse_op_bin. cbn [priority]. rewrite PW. cbn [bind]. rewrite op_bin_plain by now apply opens_app. cbn [bind].
  destruct (L2 (S g') ((inr (OBin o), bin_prio o) :: st) (l :: r0) rest) as (E & U); [len|cbn; lia|exact Fo|].
  rewrite E. split; [|exact U]. rewrite <- !app_assoc. cbn [app]. f_equal. lia.
Qed.

Lemma ind_quant m n o any t1 l c1 t2 r : n <= level o -> is_cmp o = true -> P_sup m (level o) t1 l c1 -> may_follow c1 (Top o) ->
  (forall f rest, (8 * length t2 + 2 <= f)%nat -> stop m rest -> parse_expr f m (t2 ++ rest) = Ok (r, rest)) ->
  P_sup m n (t1 ++ Top o :: quant any :: Tlpar :: t2 ++ [Trpar]) (A2 (OQuant any) l (Aquant o r)) TakesAll.
Proof.
  intros N C L1 MF W. destruct (left_done _ _ _ _ _ _ L1 (cp_level o)) as (k1 & K1 & D).
  pose proof (cp_mono _ _ N) as CM. rewrite cp_level in CM.
  assert (OP : is_op m (Top o)) by (apply is_op_bin; now destruct o).
  exists (k1 + 1)%nat, [(inr (OQuant any), bin_prio o)], [Aquant o r; l], true.
  split; [len|]. split; [constructor; [cbn; lia|constructor]|]. split; [apply reduces_two|]. intros f st r0 rest Hf T Fo.
  destruct (D f st r0 (Top o) (quant any :: Tlpar :: t2 ++ Trpar :: rest)) as (ps & s & E & PW); [len|eapply top_lt_mono; [|exact T]; lia|now apply follow_op|exact OP|].
  rewrite <- app_assoc. cbn [app]. rewrite <- app_assoc. cbn [app]. rewrite E. clear E.
  destruct (f - k1)%nat as [|g] eqn:G; [exfalso; len|]. rewrite step_op by exact OP.
  destruct g as [|g']; [exfalso; len|]. rewrite parse_op_bin. cbn [priority]. rewrite PW. cbn [bind].
  assert (OB : op_bin o st (l :: r0) (bin_prio o) (quant any :: Tlpar :: t2 ++ Trpar :: rest) g' m = Ok (((inr (OQuant any), bin_prio o) :: st, Aquant o r :: l :: r0, true), rest)).
  { unfold op_bin. rewrite C. destruct any; cbn [quant]; (rewrite (W g' (Trpar :: rest)); [reflexivity|len|now left]). }
  rewrite OB. cbn [bind]. split.
  - f_equal; len.
  - right. destruct rest as [|y ys]; [easy|]. destruct Fo as (_ & Fo). exact Fo.
Qed.

(** NOT, - and ~ *)
Lemma ind_unary m n q o tk t a : cp n <= q -> cp n <= 11 -> q <= 11 -> is_op m tk ->
  (forall f st r ts, top_lt st 11 -> parse_unary (S f) m st r tk (t ++ ts) = Ok (((inl o, 11) :: st, r), t ++ ts)) ->
  P_val m t a -> P_sup m n (tk :: t) (A1 o a) TakesNone.
Proof.
  intros N N11 Q OP PU (k & ps & rs & K & F & R & L).
  exists (1 + k)%nat, (ps ++ [(inl o, 11)]), rs, false. split; [len|].
  split; [apply Forall_app; split; [apply forall_weak with (2 := F); lia|constructor; [cbn; lia|constructor]]|].
  split; [now apply reduces_un|]. intros f st r rest Hf T Fo. split; [|now left].
  fuel f. cbn [app]. rewrite step_unary by exact OP. fuel f. rewrite PU by (eapply top_lt_mono; [|exact T]; lia). cbn [bind fst snd].
  rewrite (L (S f) ((inl o, 11) :: st) r false rest); [|len|cbn; lia|now apply follows_no_par in Fo].
  rewrite <- app_assoc. cbn [app]. f_equal; lia.
Qed.

Lemma ind_is m n b t1 l c1 x : n <= 4 -> P_sup m 4 t1 l c1 -> may_follow c1 Tis -> P_sup m n (t1 ++ Tis :: nots b ++ [Tatom x]) (A2 (OIs b) l (Aatom x)) TakesNone.
Proof.
  intros N L1 MF. destruct (left_done _ _ 3 _ _ _ L1 eq_refl) as (k1 & K1 & D).
  pose proof (cp_mono _ _ N) as CM. change (cp 4) with 3 in CM.
  assert (OP : is_op m Tis) by now apply is_op_nologic.
  exists (k1 + 2)%nat, [(inr (OIs b), 3)], [Aatom x; l], false.
  split; [len|]. split; [constructor; [cbn; lia|constructor]|]. split; [apply reduces_two|]. intros f st r0 rest Hf T Fo. split; [|now left].
  destruct (D f st r0 Tis (nots b ++ Tatom x :: rest)) as (ps & s & E & PW); [len|eapply top_lt_mono; [|exact T]; lia|now apply follow_op|exact OP|].
  rewrite <- app_assoc. cbn [app]. rewrite <- app_assoc. cbn [app]. rewrite E. clear E.
  destruct (f - k1)%nat as [|g] eqn:G; [exfalso; len|]. rewrite step_op by exact OP.
  destruct g as [|g']; [exfalso; len|]. rewrite parse_op_is. cbn [priority]. rewrite PW. cbn [bind].
  assert (E : match nots b ++ Tatom x :: rest with
     | Tnot :: ts => Ok (((inr (OIs false), 3) :: st, l :: r0, false), ts)
     | _ => Ok (((inr (OIs true), 3) :: st, l :: r0, false), nots b ++ Tatom x :: rest)
     end = Ok (((inr (OIs b), 3) :: st, l :: r0, false), Tatom x :: rest)) by now destruct b.
  rewrite E. cbn [bind]. rewrite step_value by (try reflexivity; now destruct m). destruct g' as [|h]; [exfalso; len|].
  rewrite parse_value_atom by now apply follows_no_par in Fo. cbn [bind app]. f_equal; len.
Qed.

Lemma ind_like m n b t1 l c1 t2 r : n <= 4 -> P_sup m 4 t1 l c1 -> may_follow c1 (first b Tlike) ->
  (forall f rest, (8 * length t2 + 2 <= f)%nat -> stop m rest -> parse_expr f m (t2 ++ rest) = Ok (r, rest)) ->
  P_sup m n (t1 ++ nots b ++ Tlike :: t2) (A2 (OLike b) l r) TakesAll.
Proof.
  intros N L1 MF W. destruct (left_done _ _ 3 _ _ _ L1 eq_refl) as (k1 & K1 & D).
  pose proof (cp_mono _ _ N) as CM. change (cp 4) with 3 in CM.
  assert (OP : is_op m (first b Tlike)) by (apply is_op_nologic; now destruct b).
  exists (k1 + 1)%nat, [(inr (OLike b), 3)], [r; l], false.
  split; [len|]. split; [constructor; [cbn; lia|constructor]|]. split; [apply reduces_two|]. intros f st r0 rest Hf T Fo. split; [|now left].
  destruct (D f st r0 (first b Tlike) (if b then t2 ++ rest else Tlike :: t2 ++ rest)) as (ps & s & E & PW); [len|eapply top_lt_mono; [|exact T]; lia|apply follow_op; [exact MF|now destruct b]|exact OP|].
  assert (E0 : (t1 ++ nots b ++ Tlike :: t2) ++ rest = t1 ++ first b Tlike :: (if b then t2 ++ rest else Tlike :: t2 ++ rest)) by (destruct b; cbn [nots app first]; rewrite <- app_assoc; reflexivity).
  rewrite E0, E. clear E0 E.
  destruct (f - k1)%nat as [|g] eqn:G; [exfalso; len|]. rewrite step_op by exact OP.
  destruct g as [|g']; [exfalso; len|]. rewrite parse_op_like, PW. cbn [bind].
  rewrite W; [|len|]. { cbn [bind app]. f_equal; len. }
  destruct rest as [|y ys]; [easy|]. destruct Fo as (_ & Fo). exact Fo.
Qed.

Lemma ind_between m n b t1 l c1 tx x ty y : n <= 5 -> P_sup m 5 t1 l c1 -> may_follow c1 (first b Tbetween) ->
  (forall f rest, (8 * length tx + 2 <= f)%nat -> stop false rest -> parse_expr f false (tx ++ rest) = Ok (x, rest)) ->
  (forall f rest, (8 * length ty + 2 <= f)%nat -> stop false rest -> parse_expr f false (ty ++ rest) = Ok (y, rest)) ->
  P_sup m n (t1 ++ nots b ++ Tbetween :: tx ++ Top BAnd :: ty) (A2 (OBetween b) l (A2 (OBin BAnd) x y)) TakesNoLogic.
Proof.
  intros N L1 MF WX WY. destruct (left_done _ _ 4 _ _ _ L1 eq_refl) as (k1 & K1 & D).
  pose proof (cp_mono _ _ N) as CM. change (cp 5) with 4 in CM.
  assert (OP : is_op m (first b Tbetween)) by (apply is_op_nologic; now destruct b).
  exists (k1 + 1)%nat, [(inr (OBetween b), 4)], [A2 (OBin BAnd) x y; l], false.
  split; [len|]. split; [constructor; [cbn; lia|constructor]|]. split; [apply reduces_two|]. intros f st r0 rest Hf T Fo. split; [|now left].
  set (tl := tx ++ Top BAnd :: ty ++ rest).
  destruct (D f st r0 (first b Tbetween) (if b then tl else Tbetween :: tl)) as (ps & s & E & PW); [len|eapply top_lt_mono; [|exact T]; lia|apply follow_op; [exact MF|now destruct b]|exact OP|].
  assert (E0 : (t1 ++ nots b ++ Tbetween :: tx ++ Top BAnd :: ty) ++ rest = t1 ++ first b Tbetween :: (if b then tl else Tbetween :: tl)) by (unfold tl; destruct b; cbn [nots app first]; repeat (rewrite <- app_assoc; cbn [app]); reflexivity).
  rewrite E0, E. clear E0 E.
  destruct (f - k1)%nat as [|g] eqn:G; [exfalso; len|]. rewrite step_op by exact OP.
  destruct g as [|g']; [exfalso; len|]. rewrite parse_op_between, PW. cbn [bind]. unfold tl.
  rewrite WX; [|len|now right]. cbn [bind].
  rewrite WY; [|len|]. { cbn [bind app]. f_equal; len. }
  destruct rest as [|z zs]; [easy|]. destruct Fo as (_ & Fo). cbn. cbn in Fo. destruct Fo; auto.
Qed.

Lemma ind_in m n b t1 l c1 t2 args : n <= 5 -> P_sup m 5 t1 l c1 -> may_follow c1 (first b Tin) -> P_args m t2 args ->
  P_sup m n (t1 ++ nots b ++ Tin :: Tlpar :: t2 ++ [Trpar]) (A2 (OIn b) l (Aargs args)) TakesNone.
Proof.
  intros N L1 MF (_ & W). destruct (left_done _ _ 4 _ _ _ L1 eq_refl) as (k1 & K1 & D).
  pose proof (cp_mono _ _ N) as CM. change (cp 5) with 4 in CM.
  assert (OP : is_op m (first b Tin)) by (apply is_op_nologic; now destruct b).
  exists (k1 + 1)%nat, [(inr (OIn b), 4)], [Aargs args; l], false.
  split; [len|]. split; [constructor; [cbn; lia|constructor]|]. split; [apply reduces_two|]. intros f st r0 rest Hf T Fo. split; [|now left].
  set (tl := t2 ++ Trpar :: rest).
  destruct (D f st r0 (first b Tin) (if b then Tlpar :: tl else Tin :: Tlpar :: tl)) as (ps & s & E & PW); [len|eapply top_lt_mono; [|exact T]; lia|apply follow_op; [exact MF|now destruct b]|exact OP|].
  assert (E0 : (t1 ++ nots b ++ Tin :: Tlpar :: t2 ++ [Trpar]) ++ rest = t1 ++ first b Tin :: (if b then Tlpar :: tl else Tin :: Tlpar :: tl)) by (unfold tl; destruct b; cbn [nots app first]; repeat (rewrite <- app_assoc; cbn [app]); reflexivity).
  rewrite E0, E. clear E0 E.
  destruct (f - k1)%nat as [|g] eqn:G; [exfalso; len|]. rewrite step_op by exact OP.
  destruct g as [|g']; [exfalso; len|]. rewrite parse_op_in, PW. cbn [bind]. unfold tl.
  rewrite W; [|len|now left]. cbn [bind app]. f_equal; len.
Qed.

Lemma ind_at m n t1 l c1 t2 r : n <= 5 -> P_sup m 5 t1 l c1 -> may_follow c1 Tat ->
  (forall f rest, (8 * length t2 + 2 <= f)%nat -> stop m rest -> parse_expr f m (t2 ++ rest) = Ok (r, rest)) ->
  P_sup m n (t1 ++ Tat :: Ttimezone :: t2) (A2 OAt l r) TakesAll.
Proof.
  intros N L1 MF W. destruct (left_done _ _ 4 _ _ _ L1 eq_refl) as (k1 & K1 & D).
  pose proof (cp_mono _ _ N) as CM. change (cp 5) with 4 in CM.
  assert (OP : is_op m Tat) by now apply is_op_nologic.
  exists (k1 + 1)%nat, [(inr OAt, 4)], [r; l], false.
  split; [len|]. split; [constructor; [cbn; lia|constructor]|]. split; [apply reduces_two|]. intros f st r0 rest Hf T Fo. split; [|now left].
  destruct (D f st r0 Tat (Ttimezone :: t2 ++ rest)) as (ps & s & E & PW); [len|eapply top_lt_mono; [|exact T]; lia|apply follow_op; [exact MF|easy]|exact OP|].
  rewrite <- app_assoc. cbn [app]. rewrite E. clear E.
  destruct (f - k1)%nat as [|g] eqn:G; [exfalso; len|]. rewrite step_op by exact OP.
  destruct g as [|g']; [exfalso; len|]. cbn [priority]. rewrite parse_op_at, PW. cbn [bind].
  rewrite W; [|len|]. { cbn [bind app]. f_equal; len. }
  destruct rest as [|y ys]; [easy|]. destruct Fo as (_ & Fo). exact Fo.
Qed.

Lemma ind_literal m n x y : n <= 12 -> (forall f st r ts, parse_unary (S f) m st r (Top BSub) (Tatom x :: ts) = Ok ((st, Aatom y :: r), ts)) ->
  P_sup m n [Top BSub; Tatom x] (Aatom y) TakesNone.
Proof.
  intros N PU. exists 1%nat, [], [Aatom y], false. split; [len|]. split; [constructor|]. split; [apply reduces_one|].
  intros f st r rest Hf T Fo. split; [|now left]. fuel f. cbn [app]. rewrite step_unary by now apply is_op_bin. fuel f.
  rewrite PU. cbn [bind fst snd app]. f_equal; len.
Qed.
Lemma val_sup m n t a : n <= 13 -> P_val m t a -> P_sup m n t a TakesNone.
Proof.
  intros N (k & ps & rs & K & F & R & L). pose proof (cp_le13 _ N). exists k, ps, rs, false. split; [exact K|]. split; [apply forall_weak with (2 := F); lia|].
  split; [exact R|]. intros f st r rest Hf T Fo. split; [|now left]. apply L; [exact Hf|eapply top_lt_mono; [|exact T]; lia|now apply follows_no_par in Fo].
Qed.
Lemma arr_sup m n t a : n <= 13 -> P_arr m t a -> P_sup m n t a TakesNone.
Proof.
  intros N (k & ps & rs & K & F & R & L). pose proof (cp_le13 _ N). exists k, ps, rs, false. split; [exact K|]. split; [apply forall_weak with (2 := F); lia|].
  split; [exact R|]. intros f st r rest Hf T Fo. split; [|now left]. apply L; [exact Hf|eapply top_lt_mono; [|exact T]; lia|now apply follows_no_par in Fo].
Qed.

(** values *)
Lemma ind_value m tk t a : priority tk = priority_value ->
  (forall f rest, (8 * length t + 6 <= f)%nat -> no_par rest -> parse_value f m tk (t ++ rest) = Ok (a, rest)) -> P_val m (tk :: t) a.
Proof.
  intros P W. exists 1%nat, [], [a]. split; [len|]. split; [constructor|]. split; [apply reduces_one|]. intros f st r u rest Hf T Fo.
  fuel f. cbn [app]. rewrite step_value; [|exact P|destruct m; [easy|]; destruct tk; try easy; destruct o; easy]. rewrite W; [|len|exact Fo]. cbn [bind app]. f_equal; len.
Qed.
Lemma no_par_head t rest : t <> [] -> (match t with y :: _ => y <> Tlpar | [] => True end) -> no_par (t ++ rest).
Proof. destruct t as [|y t]; [easy|]. intros _ H. cbn. destruct y; easy. Qed.
Lemma ind_vpost m t1 l t2 k : P_val m t1 l -> P_post m t2 k -> P_val m (t1 ++ t2) (k l).
Proof.
  intros (k1 & ps & rs & K & F & R & L) (o2 & x & NE & NP & KE & PL).
  exists (k1 + 1)%nat, [(inr o2, 12)], [x; l]. split; [destruct t2; [easy|]; len|]. split; [constructor; [cbn; lia|constructor]|].
  split; [rewrite KE; apply reduces_two|]. intros f st r u rest Hf T Fo. rewrite <- app_assoc.
  rewrite L; [|len|exact T|now apply no_par_head].
  rewrite (PL (f - k1)%nat ps st (rs ++ r) r l rest F (R r) T); [|len|exact Fo]. cbn [app]. f_equal; lia.
Qed.
Lemma ind_apost m t1 l t2 k : P_arr m t1 l -> P_post m t2 k -> P_arr m (t1 ++ t2) (k l).
Proof.
  intros (k1 & ps & rs & K & F & R & L) (o2 & x & NE & NP & KE & PL).
  exists (k1 + 1)%nat, [(inr o2, 12)], [x; l]. split; [destruct t2; [easy|]; len|]. split; [constructor; [cbn; lia|constructor]|].
  split; [rewrite KE; apply reduces_two|]. intros f st r rest Hf T Fo. rewrite <- app_assoc.
  rewrite L; [|len|exact T|now apply no_par_head].
  rewrite (PL (f - k1)%nat ps st (rs ++ r) r l rest F (R r) T); [|len|exact Fo]. cbn [app]. f_equal; lia.
Qed.
Lemma ind_array m t args : P_args m t args -> P_arr m (Tlbr :: t ++ [Trbr]) (Aarr args).
Proof.
  intros (_ & W). exists 1%nat, [], [Aarr args]. split; [len|]. split; [constructor|]. split; [apply reduces_one|]. intros f st r rest Hf T Fo.
  fuel f. cbn [app]. rewrite step_unary by now apply is_op_nologic. fuel f. rewrite parse_unary_lbr, <- app_assoc. cbn [app]. rewrite W; [|len|now right].
  cbn [bind fst snd app]. f_equal; len.
Qed.
Lemma ind_post m tk t o2 x : tk <> Tlpar -> is_op m tk ->
  (forall f ps o s r l rest, (8 * length t + 4 <= f)%nat -> no_par rest -> pop_while 12 (ps ++ o) s = Ok (o, l :: r) ->
     parse_op f m (ps ++ o) s tk (priority tk) (t ++ rest) = Ok (((inr o2, 12) :: o, x :: l :: r, false), rest)) ->
  P_post m (tk :: t) (fun l => A2 o2 l x).
Proof.
  intros NP OP W. exists o2, x. split; [easy|]. split; [exact NP|]. split; [easy|]. intros f ps o s r l rest F PA T Hf NPr.
  fuel f. cbn [app]. rewrite step_op by exact OP. rewrite (W f ps o s r l rest); [|len|exact NPr|now apply pop_some]. cbn [bind]. f_equal; len.
Qed.

(** lists *)
Lemma opens_not_end e t rest : opens t -> e = Trpar \/ e = Trbr \/ e = Trbrace -> exists y ys, t ++ rest = y :: ys /\ tok_eqb_end e y = false.
Proof. destruct t as [|y ys]; [easy|]. cbn. intros H E. exists y, (ys ++ rest). split; [reflexivity|]. destruct E as [-> | [-> | ->]]; destruct y; easy. Qed.
Lemma args_of_loop m t args : opens t ->
  (forall f e count rest, (8 * length t + 3 <= f)%nat -> e = Trpar \/ e = Trbr -> args_loop f m e false count (t ++ e :: rest) = Ok (args, rest)) ->
  P_args m t args.
Proof.
  intros O W. split; [intros _; exact W|]. intros f e rest Hf E. fuel f. rewrite parse_args_S.
  destruct (opens_not_end e t (e :: rest) O) as (y & ys & EQ & N); [tauto|]. rewrite EQ, N, <- EQ. apply W; [len|exact E].
Qed.
Lemma fields_of_loop m t args : opens t ->
  (forall f count rest, (8 * length t + 3 <= f)%nat -> Nat.odd count = false -> args_loop f m Trbrace true count (t ++ Trbrace :: rest) = Ok (args, rest)) ->
  P_fields m t args.
Proof.
  intros O W. split; [intros _; exact W|]. intros f rest Hf. fuel f. rewrite parse_args_S.
  destruct (opens_not_end Trbrace t (Trbrace :: rest) O) as (y & ys & EQ & N); [tauto|]. rewrite EQ, N, <- EQ. apply W; [len|reflexivity].
Qed.
Lemma odd_S count : Nat.odd (S count) = negb (Nat.odd count).
Proof. rewrite Nat.odd_succ, <- Nat.negb_odd. reflexivity. Qed.
Definition Reads (m : bool) (t : list tok) (a : ast) : Prop :=
  forall f rest, (8 * length t + 2 <= f)%nat -> stop m rest -> parse_expr f m (t ++ rest) = Ok (a, rest).
Lemma ind_args_some m t a : opens t -> Reads m t a -> P_args m t [a].
Proof.
  intros O W. apply args_of_loop; [exact O|]. intros f e count rest Hf E. fuel f. rewrite args_loop_S, W; [|len|destruct E as [-> | ->]; now left].
  cbn [bind andb]. destruct E as [-> | ->]; reflexivity.
Qed.
Lemma ind_args_cons m t a t2 b args : opens t -> Reads m t a -> P_args m t2 (b :: args) -> P_args m (t ++ Tcomma :: t2) (a :: b :: args).
Proof.
  intros O W (W2 & _). apply args_of_loop; [now apply opens_app|]. intros f e count rest Hf E. fuel f. rewrite args_loop_S, <- app_assoc. cbn [app].
  rewrite W; [|len|now left]. cbn [bind andb]. rewrite (W2 ltac:(easy) f e (S count) rest); [|len|exact E]. destruct E as [-> | ->]; reflexivity.
Qed.
Lemma field_step m t1 a t2 b f count rest : Reads m t1 a -> Reads m t2 b -> (8 * length t1 + 8 * length t2 + 11 <= f)%nat -> Nat.odd count = false -> stop m rest ->
  args_loop f m Trbrace true count (t1 ++ Tcolon :: t2 ++ rest) =
  match rest with
  | [] => Err
  | t :: ts => if tok_eqb_end Trbrace t then Ok ([a; b], ts)
               else match t with Tcomma => do (l, r) <- args_loop (f - 2) m Trbrace true (S (S count)) ts; Ok (a :: b :: l, r) | _ => Err end
  end.
Proof.
  intros W1 W2 Hf C S. fuel f. rewrite args_loop_S, W1; [|len|now left]. cbn [bind]. rewrite odd_S, C. cbn [negb andb].
  fuel f. rewrite args_loop_S, W2; [|len|exact S]. cbn [bind]. destruct rest as [|t ts]; [reflexivity|]. rewrite !odd_S, C. cbn [negb andb].
  destruct (tok_eqb_end Trbrace t); [reflexivity|]. destruct t; try reflexivity. replace (Datatypes.S (Datatypes.S f) - 2)%nat with f by lia.
  destruct (args_loop f m Trbrace true (Datatypes.S (Datatypes.S count)) ts) as [(l0, r0)| |]; reflexivity.
Qed.
Lemma ind_fields_some m t1 a t2 b : opens t1 -> Reads m t1 a -> Reads m t2 b -> P_fields m (t1 ++ Tcolon :: t2) [a; b].
Proof.
  intros O W1 W2. apply fields_of_loop; [now apply opens_app|]. intros f count rest Hf C. rewrite <- app_assoc. cbn [app].
  rewrite (field_step m t1 a t2 b); [reflexivity|exact W1|exact W2| |exact C|now left]. len.
Qed.
Lemma ind_fields_cons m t1 a t2 b t3 c args : opens t1 -> Reads m t1 a -> Reads m t2 b -> P_fields m t3 (c :: args) ->
  P_fields m (t1 ++ Tcolon :: t2 ++ Tcomma :: t3) (a :: b :: c :: args).
Proof.
  intros O W1 W2 (W3 & _). apply fields_of_loop; [now apply opens_app|]. intros f count rest Hf C. rewrite <- app_assoc. cbn [app]. rewrite <- app_assoc. cbn [app].
  rewrite (field_step m t1 a t2 b); [|exact W1|exact W2|len|exact C|now left]. cbn [tok_eqb_end].
  rewrite (W3 ltac:(easy)); [reflexivity|len|]. now rewrite !odd_S, C.
Qed.
Lemma ind_whens_cons m t1 a t2 b t3 w : Reads m t1 a -> Reads m t2 b -> P_whens m t3 w -> P_whens m (Twhen :: t1 ++ Tthen :: t2 ++ t3) ((a, b) :: w).
Proof.
  intros W1 W2 (k & K & H3 & W3). exists (S k). split; [len|]. split; [reflexivity|]. intros f e w0 rest Hf S.
  fuel f. cbn [app]. repeat (rewrite <- app_assoc; cbn [app]). rewrite case_when, W1; [|len|now left]. cbn [bind]. rewrite W2; [|len|].
  2:{ apply stops_stop. destruct t3; [exact S|exact H3]. }
  cbn [bind]. rewrite W3; [|len|exact S]. rewrite <- app_assoc. cbn [app]. f_equal.
Qed.
Lemma ind_case m te e tw w tels els : P_opt m [] te e -> P_whens m tw w -> P_opt m [Telse] tels els -> (w <> [] \/ els <> None) ->
  P_val m (Tcase :: te ++ tw ++ tels ++ [Tend]) (Acase e w els).
Proof.
  intros E (k & K & HW & W) L NE. apply ind_value; [reflexivity|]. intros f rest Hf _. fuel f. rewrite parse_value_case.
  repeat (rewrite <- app_assoc; cbn [app]).
  (* ELSE and END *)
  assert (T : forall g e0, (8 * length tels + 4 <= g)%nat -> case_loop g m e0 w None (tels ++ Tend :: rest) = Ok (Acase e0 w els, rest)).
  { intros g e0 Hg. destruct els as [x|]; cbn [P_opt] in L.
    - destruct L as (t' & -> & O & RD). fuel g. cbn [app]. rewrite case_else, RD; [|len|now left]. cbn [bind]. fuel g. rewrite case_end; [reflexivity|now right].
    - subst tels. cbn [app]. fuel g. rewrite case_end; [reflexivity|exact NE]. }
  assert (ST : stops (tels ++ Tend :: rest)). { destruct els as [x|]; cbn [P_opt] in L; [destruct L as (t' & -> & _); reflexivity|subst tels; reflexivity]. }
  (* WHEN *)
  assert (TW : forall g e0, (8 * length tw + 8 * length tels + 4 <= g)%nat -> case_loop g m e0 [] None (tw ++ tels ++ Tend :: rest) = Ok (Acase e0 w els, rest)).
  { intros g e0 Hg. rewrite W; [|len|exact ST]. cbn [app]. apply T. len. }
  destruct e as [x|]; cbn [P_opt] in E.
  - destruct E as (t' & -> & O & RD). cbn [app] in *. fuel f. rewrite case_expr by now apply opens_app. rewrite RD; [|len|].
    2:{ apply stops_stop. destruct tw; [exact ST|exact HW]. }
    cbn [bind]. apply TW. len.
  - subst te. cbn [app]. apply TW. len.
Qed.

Lemma reads_sup m n t a c : P_sup m n t a c -> Reads m t a.
Proof. exact (whole m n t a c). Qed.
Lemma literal_app t r : t <> [] -> literal (t ++ r) -> literal t.
Proof. destruct t as [|x t]; [easy|]. intros _ (z & s & H). exists z, t. cbn in H. destruct H as [H|H]; injection H as ->; auto. Qed.

Lemma sup_parse :
  (forall m n t a c, Sup m n t a c -> P_sup m n t a c) /\
  (forall m t a, Val m t a -> P_val m t a) /\
  (forall m t a, ArrVal m t a -> P_arr m t a) /\
  (forall m t k, Post m t k -> P_post m t k) /\
  (forall m t a, SupArgs m t a -> P_args m t a) /\
  (forall m t a, SupFields m t a -> P_fields m t a) /\
  (forall m t w, SupWhens m t w -> P_whens m t w) /\
  (forall m p t a, SupOpt m p t a -> P_opt m p t a).
Proof.
  destruct sup_opens as (OS & OV & _).
  apply Sup_mut; intros.
  - (* bin *) eapply ind_bin; eauto.
  - (* quant *) eapply ind_quant; eauto using reads_sup. eapply whole; eassumption.
  - (* not *) apply ind_unary with (q := 3); [now apply cp_le3|pose proof (cp_le3 n H); lia|lia|now apply is_op_nologic| |assumption].
    intros f st r ts T. now rewrite parse_unary_not, pop_none.
  - eapply ind_is; eauto.
  - eapply ind_like; eauto. eapply whole; eassumption.
  - eapply ind_between; eauto; eapply whole; eassumption.
  - eapply ind_in; eauto.
  - eapply ind_at; eauto. eapply whole; eassumption.
  - apply ind_literal; [assumption|reflexivity].
  - apply ind_literal; [assumption|reflexivity].
  - apply ind_unary with (q := 11); [now apply cp_le12|now apply cp_le12|lia|now apply is_op_bin| |assumption].
    intros f st r ts T. rewrite parse_unary_neg, pop_none; auto. intros Q. apply literal_app in Q; [easy|]. intros ->. now apply OV in H0.
  - apply ind_unary with (q := 11); [now apply cp_le12|now apply cp_le12|lia|now apply is_op_nologic| |assumption].
    intros f st r ts T. now rewrite parse_unary_inv, pop_none.
  - now apply val_sup.
  - now apply arr_sup.
  - (* atom *) apply ind_value; [reflexivity|]. intros f rest Hf NP. fuel f. now apply parse_value_atom.
  - (* call *) apply ind_value; [reflexivity|]. intros f0 rest Hf NP. fuel f0. cbn [app]. rewrite parse_value_call, <- app_assoc. cbn [app].
    destruct H0 as (_ & W). rewrite W; [reflexivity|len|now left].
  - (* paren *) apply ind_value; [reflexivity|]. intros f rest Hf NP. fuel f. rewrite parse_value_lpar, <- app_assoc. cbn [app].
    rewrite (whole _ _ _ _ _ H0); [reflexivity|len|now left].
  - (* object *) apply ind_value; [reflexivity|]. intros f rest Hf NP. fuel f. rewrite parse_value_obj, <- app_assoc. cbn [app].
    destruct H0 as (_ & W). rewrite W; [reflexivity|len].
  - now apply ind_case.
  - now apply ind_vpost.
  - now apply ind_array.
  - now apply ind_apost.
  - (* index *) apply ind_post; [easy|now apply is_op_nologic|]. intros f ps o s r0 l rest Hf NP PW. fuel f. cbn [priority]. rewrite parse_op_lbr, PW, <- app_assoc. cbn [bind app].
    rewrite (whole _ _ _ _ _ H0); [reflexivity|len|now left].
  - apply ind_post; [easy|now apply is_op_nologic|]. intros f ps o s0 r0 l rest Hf NP PW. fuel f. cbn [priority app]. now rewrite parse_op_dot_str, PW.
  - apply ind_post; [easy|now apply is_op_nologic|]. intros f ps o s0 r0 l rest Hf NP PW. fuel f. cbn [priority app]. now rewrite parse_op_dot, PW.
  - apply ind_post; [easy|now apply is_op_nologic|]. intros f0 ps o s0 r0 l rest Hf NP PW. fuel f0. cbn [priority app]. now rewrite parse_op_method, PW.
  - apply ind_post; [easy|now apply is_op_nologic|]. intros f0 ps o s0 r0 l rest Hf NP PW. fuel f0. cbn [priority app]. rewrite parse_op_method_args, PW, <- app_assoc. cbn [bind app].
    destruct H0 as (_ & W). rewrite W; [reflexivity|len|now left].
  - split; [easy|]. intros f e rest Hf E. fuel f. rewrite parse_args_S. destruct E as [-> | ->]; reflexivity.
  - apply ind_args_some; [eapply OS; eassumption|eapply reads_sup; eassumption].
  - apply ind_args_cons; [eapply OS; eassumption|eapply reads_sup; eassumption|assumption].
  - split; [easy|]. intros f rest Hf. fuel f. reflexivity.
  - apply ind_fields_some; [eapply OS; eassumption|eapply reads_sup; eassumption|eapply reads_sup; eassumption].
  - apply ind_fields_cons; [eapply OS; eassumption|eapply reads_sup; eassumption|eapply reads_sup; eassumption|assumption].
  - exists 0%nat. split; [cbn; lia|]. split; [easy|]. intros. rewrite app_nil_r. cbn [app]. now rewrite Nat.sub_0_r.
  - apply ind_whens_cons; [eapply reads_sup; eassumption|eapply reads_sup; eassumption|assumption].
  - reflexivity.
  - exists t. split; [reflexivity|]. split; [eapply OS; eassumption|eapply reads_sup; eassumption].
Qed.

(** ** what is read is standard *)
Lemma std_weak n n' t a : Std n t a -> n' <= n -> Std n' t a.
Proof. intros H L. destruct H; econstructor; eauto; lia. Qed.
Lemma lowest_ge m : 1 <= lowest m.
Proof. destruct m; cbn; lia. Qed.
Lemma val_std :
  (forall m n t a c, Sup m n t a c -> Std n t a) /\
  (forall m t a, Val m t a -> Std 13 t a) /\
  (forall m t a, ArrVal m t a -> Std 13 t a) /\
  (forall m t k, Post m t k -> forall t1 l, Std 13 t1 l -> Std 13 (t1 ++ t) (k l)) /\
  (forall m t a, SupArgs m t a -> StdArgs t a) /\
  (forall m t a, SupFields m t a -> StdFields t a) /\
  (forall m t w, SupWhens m t w -> StdWhens t w) /\
  (forall m p t a, SupOpt m p t a -> StdOpt p t a).
Proof.
  assert (LW : forall m t a, Std (lowest m) t a -> Std 1 t a) by (intros m t a H; apply std_weak with (1 := H); apply lowest_ge).
  apply Sup_mut; intros; eauto 3 using std_weak; try (econstructor; eauto using std_weak; lia).
  - apply S_not; [assumption|]. apply std_weak with (n := 13); [assumption|lia].
  - apply S_neg; [assumption|apply std_weak with (n := 13); [assumption|lia]|].
    intros x. split; intros ->; apply H2; exists x, []; auto.
  - apply S_inv; [assumption|]. apply std_weak with (n := 13); [assumption|lia].
Qed.
