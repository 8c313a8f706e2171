(** C78 (and C55): the code of an expression computes its value. *)
From Verif Require Import Base CompModel CompSpec CompProofs CompMain.

(** C78.  An expression compiled at any place of a statement ([s]: the code before and the registers in use,
    [tail]: the code after): the run from its first operation ends behind its last one, with the value of the
    expression in the result register, the stack and the registers in use as before; or fails as the value
    does.  Without expressions that use the result of LIKE as a string. *)
Theorem C78_compiled_expression_partial : forall P env itype ftype e s s' r tail regs0 stk,
  typed itype ftype P env -> in_bool P -> fine e = true ->
  emit itype ftype e s = Ok (s', r) ->
  (exists frag, code s' = code s ++ frag) /\
  exists y, goes P env (code s' ++ tail) {| pc := length (code s); rs := regs0; st := stk |} y /\
            result (map_ s) regs0 stk (length (code s')) r (eval P env e) y.
Proof.
  intros P env itype ftype e s s' r tail regs0 stk TY IB F H.
  destruct (proj1 (emit_all P env itype ftype TY IB) e s s' r H) as (frag & T & E & _ & _ & W). split; [now exists frag|].
  destruct (W F) as (R & _).
  assert (A : At (code s' ++ tail) (length (code s)) frag).
  { intros i Hi. rewrite E, <- app_assoc, nth_error_app2 by lia. replace (length (code s) + i - length (code s))%nat with i by lia. now apply nth_error_app1. }
  specialize (R _ regs0 stk A). unfold Goes in R. destruct (eval P env e) as [v| |].
  - destruct R as (p' & r' & k' & G & -> & Rv & -> & K). eexists. split; [exact G|]. cbn. auto.
  - eexists. split; [exact R|exact I].
  - eexists. split; [exact R|exact I].
Qed.
Print Assumptions C78_compiled_expression_partial.

(** there is one run: two runs from a state are the same, or one is the beginning of the other *)
Theorem C78_run_unique : forall P env C s x y, goes P env C s x -> goes P env C s y ->
  x = y \/ (exists w, x = Ok w /\ goes P env C w y) \/ (exists w, y = Ok w /\ goes P env C w x).
Proof.
  intros P env C s x y H. revert y. induction H as [s|s s1 x S G IH|s S|s S]; intros y Hy.
  - right. left. exists s. auto.
  - inversion Hy as [s'|s' s2 y' S2 G2|s' S2|s' S2]; subst.
    + right. right. exists s. split; [reflexivity|]. now apply g_step with (1 := S).
    + rewrite S in S2. injection S2 as <-. now apply IH.
    + congruence.
    + congruence.
  - inversion Hy as [s'|s' s2 y' S2 G2|s' S2|s' S2]; subst; try congruence; [|now left].
    right. right. exists s. split; [reflexivity|now apply g_err].
  - inversion Hy as [s'|s' s2 y' S2 G2|s' S2|s' S2]; subst; try congruence; [|now left].
    right. right. exists s. split; [reflexivity|now apply g_ub].
Qed.
Print Assumptions C78_run_unique.

(** FALSE of the code without the condition on LIKE: ('a' LIKE 'b') = 'x' is compiled as a comparison of
    strings; the run reads the truth value as a string.  The comparison with TRUE is refused. *)
Definition like_ab : expr := ELike true (EConst (VString [97])) (EConst (VString [98])).
Theorem C78_like_refuted : forall P env itype ftype, p_like P [97] [98] = Ok false ->
  (exists s' r, emit itype ftype (EBin OpEqu like_ab (EConst (VString [120]))) (comp_init []) = Ok (s', r) /\
     goes P env (code s') {| pc := 0; rs := fun _ => VNull; st := [] |} UB) /\
  eval P env (EBin OpEqu like_ab (EConst (VString [120]))) = Err /\
  eval P env (EBin OpEqu like_ab (EConst (VBool 1))) = Ok (VBool 0) /\
  emit itype ftype (EBin OpEqu like_ab (EConst (VBool 1))) (comp_init []) = Err.
Proof.
  intros P env itype ftype L. split; [|split; [|split]].
  - eexists _, _. split; [reflexivity|]. cbn [code].
    eapply g_step; [reflexivity|]. eapply g_step; [reflexivity|]. eapply g_step; [cbn; rewrite L; reflexivity|]. eapply g_step; [reflexivity|]. apply g_ub. reflexivity.
  - cbn. rewrite L. reflexivity.
  - cbn. rewrite L. reflexivity.
  - reflexivity.
Qed.
Print Assumptions C78_like_refuted.

(** FALSE of the code: an interval where a truth value is expected is compiled, and read as a pointer *)
Theorem C78_interval_truth_refuted : forall P env itype ftype i,
  exists s' r, emit itype ftype (ENot (EConst (VInterval i))) (comp_init []) = Ok (s', r) /\
    goes P env (code s') {| pc := 0; rs := fun _ => VNull; st := [] |} UB.
Proof.
  intros P env itype ftype i. eexists _, _. split; [reflexivity|]. cbn [code]. eapply g_step; [reflexivity|]. apply g_ub. reflexivity.
Qed.
Print Assumptions C78_interval_truth_refuted.

(** a case that meets the hypotheses *)
Definition prims0 : prims :=
  {| p_int := fun o x y => match o with Add => Ok (x + y) | Sub => Ok (x - y) | Mul => Ok (x * y) | _ => if y =? 0 then Err else Ok (x / y) end;
     p_dbl := fun _ x y => Ok (x + y); p_dbl_of_int := fun x => x; p_dbl_rel := fun r x y => rel_int r x y;
     p_str_cmp := fun a b => if bytes_eqb a b then 0 else 1; p_json_cmp := fun _ _ => 0; p_iv_cmp := fun _ _ => 0; p_vec_cmp := fun _ _ => 0; p_uuid_cmp := fun _ _ => 0;
     p_ts_add := fun _ _ => Err; p_ts_sub := fun _ _ => Err; p_ts_diff := fun _ _ => Err; p_date_add := fun _ _ => Err; p_date_sub := fun _ _ => Err;
     p_date_ts_add := fun _ _ => Err; p_date_ts_sub := fun _ _ => Err; p_iv_add := fun _ _ => Err; p_iv_sub := fun _ _ => Err; p_iv_neg := fun _ => Err; p_vec := fun _ _ _ => Err;
     p_int_neg := fun x => Ok (- x); p_int_inv := fun x => - x - 1; p_dbl_neg := fun x => - x;
     p_idx_obj := fun _ _ => Ok None; p_idx_arr := fun _ _ => Ok None; p_dot := fun _ _ => Ok None; p_idx_vec := fun _ _ => Err; p_like := fun _ _ => Ok true; p_dbl_pos := fun d => 0 <? d;
     p_in := fun v l => Ok (vbool (existsb (fun w => match v, w with VInt a, VInt b => a =? b | _, _ => false end) l));
     p_array := fun l => Ok (map (fun v => match v with VInt z => z | _ => 0 end) l); p_obj := fun _ => Ok [];
     p_call := fun _ l => match l with [VInt a; VInt b] => Ok (VInt (a * 10 + b)) | _ => Err end |}.
Definition env0 (i : nat) : value := match i with O => VInt 5 | 1%nat => VNull | _ => VString [104; 105] end.
Definition itype0 (i : nat) : ty := match i with O => TInt | 1%nat => TInt | _ => TString end.
(** CASE a WHEN f(b, 2) THEN 1 WHEN f(0, 5) THEN (CASE WHEN a IN (4, a) AND NOT a BETWEEN 6 AND 9 THEN -a + 3 END) ELSE 0 END *)
Definition expr0 : expr :=
  ECase (EInput 0)
    (WCons (ECall 0 (ACons (EInput 0) (ACons (EConst (VInt 2)) ANil))) (EConst (VInt 1))
    (WCons (ECall 0 (ACons (EConst (VInt 0)) (ACons (EConst (VInt 5)) ANil)))
       (ECase0 (WCons (EAnd (EIn true (EInput 0) (ACons (EConst (VInt 4)) (ACons (EInput 0) ANil))) (EBetween false (EInput 0) (EConst (VInt 6)) (EConst (VInt 9))))
                      (EBin OpAdd (ENeg (EInput 0)) (EConst (VInt 3))) WNil) (EConst VNull))
     WNil)) (EConst (VInt 0)).
Example C78_nonvacuous :
  typed itype0 (fun _ => TInt) prims0 env0 /\ in_bool prims0 /\ fine expr0 = true /\
  (exists s' r, emit itype0 (fun _ => TInt) expr0 (comp_init [Some TString; None]) = Ok (s', r) /\ length (code s') = 43%nat /\ r = 1%nat) /\
  eval prims0 env0 expr0 = Ok (VInt (-2)) /\ eval prims0 env0 (EBin OpAdd (EInput 0) (EInput 1)) = Ok VNull.
Proof.
  split. { split; [intros [|[|i]]; [now right|now left|now right]|]. intros f vs v H. cbn in H. destruct vs as [|[] [|[] []]]; try discriminate H. injection H as <-. now right. }
  split. { intros v l x H. injection H as <-. now right. }
  split; [reflexivity|]. split; [eexists _, _; split; [reflexivity|]; split; reflexivity|]. split; reflexivity.
Qed.

(** C55.  The truth values of SQL: NULL is not known *)
Inductive tv := T | F | U.
Definition tv_not (a : tv) : tv := match a with T => F | F => T | U => U end.
Definition tv_and (a b : tv) : tv := match a, b with F, _ | _, F => F | T, T => T | _, _ => U end.
Definition tv_or (a b : tv) : tv := match a, b with T, _ | _, T => T | F, F => F | _, _ => U end.
Definition val (t : tv) : value := match t with T => VBool 1 | F => VBool 0 | U => VNull end.
(** the compiled code of an expression gives the value [v] *)
Definition computes (P : prims) (e : expr) (v : value) : Prop :=
  exists s' r st', emit (fun _ => TBool) (fun _ => TBool) e (comp_init []) = Ok (s', r) /\
    goes P (fun _ => VNull) (code s') {| pc := 0; rs := fun _ => VNull; st := [] |} (Ok st') /\ pc st' = length (code s') /\ rs st' r = v.
(** AND, OR and NOT of truth values that are known, and NULL OR a *)
Theorem C55_compiled_partial : forall P a b,
  computes P (ENot (EConst (val a))) (val (tv_not a)) /\
  (a <> U -> b <> U -> computes P (EAnd (EConst (val a)) (EConst (val b))) (val (tv_and a b)) /\
                       computes P (EOr (EConst (val a)) (EConst (val b))) (val (tv_or a b))) /\
  (a = U -> b <> F -> computes P (EAnd (EConst (val a)) (EConst (val b))) (val (tv_and a b)) /\
                      computes P (EOr (EConst (val a)) (EConst (val b))) (val (tv_or a b))).
Proof.
  intros P a b. split; [|split].
  - destruct a; (eexists _, _, _; split; [reflexivity|]; split; [eapply g_step; [reflexivity|]; eapply g_step; [reflexivity|]; apply g_stay|split; reflexivity]).
  - intros Ha Hb. destruct a; try (now elim Ha); (destruct b; try (now elim Hb));
      (split; (eexists _, _, _; split; [reflexivity|]; split; [eapply g_step; [reflexivity|]; eapply g_step; [reflexivity|]; eapply g_step; [reflexivity|]; apply g_stay|split; reflexivity])).
  - intros -> Hb. destruct b; try (now elim Hb);
      (split; (eexists _, _, _; split; [reflexivity|]; split; [eapply g_step; [reflexivity|]; eapply g_step; [reflexivity|]; eapply g_step; [reflexivity|]; apply g_stay|split; reflexivity])).
Qed.
Print Assumptions C55_compiled_partial.
(** FALSE of the code: FALSE AND NULL is NULL, FALSE OR NULL is FALSE *)
Theorem C55_compiled_refuted : forall P,
  computes P (EAnd (EConst (val F)) (EConst (val U))) (val U) /\ tv_and F U = F /\
  computes P (ENot (EAnd (EConst (val F)) (EConst (val U)))) (val U) /\ tv_not (tv_and F U) = T /\
  computes P (EOr (EConst (val F)) (EConst (val U))) (val F) /\ tv_or F U = U /\
  computes P (ENot (EOr (EConst (val F)) (EConst (val U)))) (val T) /\ tv_not (tv_or F U) = U.
Proof.
  intros P.
  split; [|split; [reflexivity|split; [|split; [reflexivity|split; [|split; [reflexivity|split; [|reflexivity]]]]]]];
    (eexists _, _, _; split; [reflexivity|]; split; [|split]; [repeat (eapply g_step; [reflexivity|]); apply g_stay|reflexivity|reflexivity]).
Qed.
Print Assumptions C55_compiled_refuted.
