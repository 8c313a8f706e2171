(** C77: the operators of an expression group by their precedence. *)
From Verif Require Import Base ExprModel ExprSpec ExprProofs.

(** What the parser reads: for every expression of the grammar [Sup] (ExprSpec.v), of any length and
    depth, the tree is the one of the grammar, and nothing behind the expression is read. *)
Theorem C77_precedence_partial : forall t a c rest,
  Sup true 1 t a c -> stops rest -> parse_expression (t ++ rest) = Ok (a, rest).
Proof.
  intros t a c rest H S. unfold parse_expression. destruct sup_parse as (PS & _). apply (whole true 1 t a c (PS _ _ _ _ _ H)).
  - rewrite app_length. lia.
  - now apply stops_stop.
Qed.
Print Assumptions C77_precedence_partial.

(** The grammar that is read is part of the standard one: same levels, same trees. *)
Theorem C77_read_is_standard : forall m n t a c, Sup m n t a c -> Std n t a.
Proof. apply val_std. Qed.
Print Assumptions C77_read_is_standard.

(** An expression of the grammar has one tree. *)
Theorem C77_read_unambiguous : forall t a a' c c', Sup true 1 t a c -> Sup true 1 t a' c' -> a = a'.
Proof.
  intros t a a' c c' H H'. pose proof (C77_precedence_partial t a c [] H I) as E. pose proof (C77_precedence_partial t a' c' [] H' I) as E'.
  rewrite E in E'. now injection E'.
Qed.
Print Assumptions C77_read_unambiguous.

(** A binary operator takes what binds as tight on the left, and tighter on the right. *)
Theorem C77_binary : forall o p x y z rest, stops rest ->
  parse_expression (Tatom x :: Top o :: Tatom y :: Top p :: Tatom z :: rest) =
  Ok (if level p <=? level o then A2 (OBin p) (A2 (OBin o) (Aatom x) (Aatom y)) (Aatom z)
      else A2 (OBin o) (Aatom x) (A2 (OBin p) (Aatom y) (Aatom z)), rest).
Proof.
  intros o p x y z rest S.
  assert (V : forall n v, n <= 13 -> Sup true n [Tatom v] (Aatom v) TakesNone) by (intros; apply E_val; [assumption|apply V_atom]).
  assert (B : forall o, 1 <= level o <= 11) by (intros []; cbn; lia).
  pose proof (B o) as Bo. pose proof (B p) as Bp. destruct (level p <=? level o) eqn:L.
  - apply Z.leb_le in L. apply (C77_precedence_partial (([Tatom x] ++ Top o :: [Tatom y]) ++ Top p :: [Tatom z]) _ TakesNone rest); [|exact S].
    eapply E_bin with (c1 := TakesNone); [lia|easy| |exact I|apply V; lia]. eapply E_bin with (c1 := TakesNone); [lia|easy|apply V; lia|exact I|apply V; lia].
  - apply Z.leb_gt in L. apply (C77_precedence_partial ([Tatom x] ++ Top o :: ([Tatom y] ++ Top p :: [Tatom z])) _ TakesNone rest); [|exact S].
    eapply E_bin with (c1 := TakesNone); [lia|easy|apply V; lia|exact I|]. eapply E_bin with (c1 := TakesNone); [lia|easy|apply V; lia|exact I|apply V; lia].
Qed.
Print Assumptions C77_binary.

(** *** The hypotheses are met: NOT a AND -b * (c + 2)[1] < d OR e BETWEEN 1 AND 2 AND f IN (3, g(4)) *)
Example C77_nonvacuous : exists t a c, Sup true 1 t a c /\ parse_expression (t ++ [Tother 1]) = Ok (a, [Tother 1]) /\ length t = 33%nat.
Proof.
  set (N := fun i => Tatom (XName i)). set (I := fun i => Tatom (XInt i)).
  assert (V : forall m n v, n <= 13 -> Sup m n [Tatom v] (Aatom v) TakesNone) by (intros; apply E_val; [assumption|apply V_atom]).
  pose (t1 := Tnot :: [N 1]).
  pose (tp := Tlpar :: ([N 3] ++ Top BAdd :: [I 2]) ++ [Trpar]).
  pose (t2 := ((Top BSub :: [N 2]) ++ Top BMul :: (tp ++ (Tlbr :: [I 1] ++ [Trbr]))) ++ Top BLt :: [N 4]).
  pose (t3 := [N 5] ++ nots true ++ Tbetween :: [I 1] ++ Top BAnd :: [I 2]).
  pose (t4 := [N 6] ++ nots true ++ Tin :: Tlpar :: ([I 3] ++ Tcomma :: (N 7 :: Tlpar :: [I 4] ++ [Trpar])) ++ [Trpar]).
  assert (S : Sup true 1 ((t1 ++ Top BAnd :: t2) ++ Top BOr :: (t3 ++ Top BAnd :: t4))
      (A2 (OBin BOr)
         (A2 (OBin BAnd) (A1 ONot (Aatom (XName 1)))
            (A2 (OBin BLt) (A2 (OBin BMul) (A1 ONeg (Aatom (XName 2))) (A2 OIdx (A2 (OBin BAdd) (Aatom (XName 3)) (Aatom (XInt 2))) (Aatom (XInt 1)))) (Aatom (XName 4))))
         (A2 (OBin BAnd)
            (A2 (OBetween true) (Aatom (XName 5)) (A2 (OBin BAnd) (Aatom (XInt 1)) (Aatom (XInt 2))))
            (A2 (OIn true) (Aatom (XName 6)) (Aargs [Aatom (XInt 3); Afunc 7 (Some [Aatom (XInt 4)])])))) TakesNone).
  { eapply E_bin with (c1 := TakesNone); [cbn; lia|easy| |exact Logic.I|].
    - eapply E_bin with (c1 := TakesNone); [cbn; lia|easy| |exact Logic.I|].
      + apply E_not; [cbn; lia|apply V_atom].
      + eapply E_bin with (c1 := TakesNone); [cbn; lia|easy| |exact Logic.I|apply V; cbn; lia].
        eapply E_bin with (c1 := TakesNone); [cbn; lia|easy| |exact Logic.I|].
        * apply E_neg; [cbn; lia|apply V_atom|]. intros (z & r & [H|H]); discriminate H.
        * apply E_val; [cbn; lia|].
          apply (V_post true tp (A2 (OBin BAdd) (Aatom (XName 3)) (Aatom (XInt 2))) (Tlbr :: [I 1] ++ [Trbr]) (fun l => A2 OIdx l (Aatom (XInt 1)))).
          -- eapply V_paren. eapply E_bin with (c1 := TakesNone); [cbn; lia|easy|apply V; cbn; lia|exact Logic.I|apply V; cbn; lia].
          -- eapply P_index. apply V. cbn. lia.
    - eapply E_bin with (c1 := TakesNoLogic); [cbn; lia|easy| |reflexivity|].
      + eapply E_between; [cbn; lia|apply V; cbn; lia|exact Logic.I|apply V; cbn; lia|apply V; cbn; lia].
      + eapply E_in; [cbn; lia|apply V; cbn; lia|exact Logic.I|].
        eapply EA_cons; [apply V; cbn; lia|]. eapply EA_some. apply E_val; [cbn; lia|].
        apply V_call. eapply EA_some. apply V. cbn. lia. }
  eexists _, _, _. split; [exact S|]. split; [apply (C77_precedence_partial _ _ _ _ S); reflexivity|reflexivity].
Qed.

(** *** Where the full property fails: every expression of the standard grammar is read with its tree. *)
Definition nm (i : Z) : list tok := [Tatom (XName i)].
Definition an (i : Z) : ast := Aatom (XName i).
Lemma std_nm n i : n <= 14 -> Std n (nm i) (an i).
Proof. intros. now apply S_atom. Qed.

(** NOT a = b is read as (NOT a) = b *)
Theorem C77_not_refuted : exists t a a', Std 1 t a /\ parse_expression t = Ok (a', []) /\ a <> a' /\
  a = A1 ONot (A2 (OBin BEq) (an 1) (an 2)) /\ a' = A2 (OBin BEq) (A1 ONot (an 1)) (an 2).
Proof.
  exists (Tnot :: nm 1 ++ Top BEq :: nm 2). eexists _, _. split; [|split; [|split; [|split; reflexivity]]].
  - apply S_not; [lia|]. apply S_bin; [cbn; lia|apply std_nm; cbn; lia|apply std_nm; cbn; lia].
  - reflexivity.
  - discriminate.
Qed.
Print Assumptions C77_not_refuted.
(** NOT a IS NULL is read as (NOT a) IS NULL, NOT a IN (b) as (NOT a) IN (b) *)
Theorem C77_not_is_refuted : exists t a a', Std 1 t a /\ parse_expression t = Ok (a', []) /\ a <> a' /\
  a = A1 ONot (A2 (OIs true) (an 1) (an 2)) /\ a' = A2 (OIs true) (A1 ONot (an 1)) (an 2).
Proof.
  exists (Tnot :: nm 1 ++ Tis :: nots true ++ [Tatom (XName 2)]). eexists _, _. split; [|split; [|split; [|split; reflexivity]]].
  - apply S_not; [lia|]. apply S_is; [lia|apply std_nm; lia].
  - reflexivity.
  - discriminate.
Qed.
Print Assumptions C77_not_is_refuted.
(** a LIKE p AND b is read as a LIKE (p AND b) *)
Theorem C77_like_refuted : exists t a a', Std 1 t a /\ parse_expression t = Ok (a', []) /\ a <> a' /\
  a = A2 (OBin BAnd) (A2 (OLike true) (an 1) (an 2)) (an 3) /\ a' = A2 (OLike true) (an 1) (A2 (OBin BAnd) (an 2) (an 3)).
Proof.
  exists ((nm 1 ++ nots true ++ Tlike :: nm 2) ++ Top BAnd :: nm 3). eexists _, _. split; [|split; [|split; [|split; reflexivity]]].
  - apply S_bin; [cbn; lia| |apply std_nm; cbn; lia]. apply S_like; [cbn; lia|apply std_nm; lia|apply std_nm; lia].
  - reflexivity.
  - discriminate.
Qed.
Print Assumptions C77_like_refuted.
(** a BETWEEN b AND c = d is read as a BETWEEN b AND (c = d) *)
Theorem C77_between_refuted : exists t a a', Std 1 t a /\ parse_expression t = Ok (a', []) /\ a <> a' /\
  a = A2 (OBin BEq) (A2 (OBetween true) (an 1) (A2 (OBin BAnd) (an 2) (an 3))) (an 4) /\
  a' = A2 (OBetween true) (an 1) (A2 (OBin BAnd) (an 2) (A2 (OBin BEq) (an 3) (an 4))).
Proof.
  exists ((nm 1 ++ nots true ++ Tbetween :: nm 2 ++ Top BAnd :: nm 3) ++ Top BEq :: nm 4). eexists _, _. split; [|split; [|split; [|split; reflexivity]]].
  - apply S_bin; [cbn; lia| |apply std_nm; cbn; lia]. apply S_between; [cbn; lia|apply std_nm; lia|apply std_nm; lia|apply std_nm; lia].
  - reflexivity.
  - discriminate.
Qed.
Print Assumptions C77_between_refuted.
(** -5::f is read as (-5)::f, although -x::f is -(x::f) *)
Theorem C77_minus_refuted : exists t a a', Std 1 t a /\ parse_expression t = Ok (a', []) /\ a <> a' /\
  a = A1 ONeg (A2 OMethod (Aatom (XInt 5)) (Afunc 1 None)) /\ a' = A2 OMethod (Aatom (XInt (-5))) (Afunc 1 None) /\
  parse_expression (Top BSub :: nm 2 ++ [Tmethod; Tatom (XName 1)]) = Ok (A1 ONeg (A2 OMethod (an 2) (Afunc 1 None)), []).
Proof.
  exists (Top BSub :: [Tatom (XInt 5)] ++ [Tmethod; Tatom (XName 1)]). eexists _, _. split; [|split; [|split; [|split; [reflexivity|split; reflexivity]]]].
  - apply S_neg; [lia| |]; [|intros x; split; discriminate]. apply S_method; [lia|]. apply S_atom. lia.
  - reflexivity.
  - discriminate.
Qed.
Print Assumptions C77_minus_refuted.
(** a = ANY (x) AND b, - - a, NOT NOT a, NOT [a] and a BETWEEN (b OR c) AND d are refused *)
Theorem C77_refused_refuted :
  (exists t a, Std 1 t a /\ parse_expression t = Err /\
     a = A2 (OBin BAnd) (A2 (OQuant true) (an 1) (Aquant BEq (an 2))) (an 3)) /\
  (exists t a, Std 1 t a /\ parse_expression t = Err /\ a = A1 ONeg (A1 ONeg (an 1))) /\
  (exists t a, Std 1 t a /\ parse_expression t = Err /\ a = A1 ONot (A1 ONot (an 1))) /\
  (exists t a, Std 1 t a /\ parse_expression t = Err /\ a = A1 ONot (Aarr [an 1])) /\
  (exists t a, Std 1 t a /\ parse_expression t = Err /\
     a = A2 (OBetween true) (an 1) (A2 (OBin BAnd) (A2 (OBin BOr) (an 2) (an 3)) (an 4))).
Proof.
  split; [|split; [|split; [|split]]].
  - exists ((nm 1 ++ Top BEq :: quant true :: Tlpar :: nm 2 ++ [Trpar]) ++ Top BAnd :: nm 3). eexists. split; [|split; reflexivity].
    apply S_bin; [cbn; lia| |apply std_nm; cbn; lia]. apply S_quant; [cbn; lia|reflexivity|apply std_nm; cbn; lia|apply std_nm; lia].
  - exists (Top BSub :: Top BSub :: nm 1). eexists. split; [|split; reflexivity].
    apply S_neg; [lia| |intros x; split; discriminate]. apply S_neg; [lia|apply std_nm; lia|intros x; split; discriminate].
  - exists (Tnot :: Tnot :: nm 1). eexists. split; [|split; reflexivity]. apply S_not; [lia|]. apply S_not; [lia|apply std_nm; lia].
  - exists (Tnot :: Tlbr :: nm 1 ++ [Trbr]). eexists. split; [|split; reflexivity]. apply S_not; [lia|]. apply S_array; [lia|]. apply SA_some. apply std_nm. lia.
  - exists (nm 1 ++ nots true ++ Tbetween :: (Tlpar :: (nm 2 ++ Top BOr :: nm 3) ++ [Trpar]) ++ Top BAnd :: nm 4). eexists. split; [|split; reflexivity].
    apply S_between; [lia|apply std_nm; lia| |apply std_nm; lia]. apply S_paren; [lia|]. apply S_bin; [cbn; lia|apply std_nm; cbn; lia|apply std_nm; cbn; lia].
Qed.
Print Assumptions C77_refused_refuted.

(** *** An expression and the name behind it: SELECT expr name (parse_returning.c: expr [AS] [name]) *)
(** Behind one value or an expression in parentheses the name is left.  Partial: C77_alias_refuted. *)
Theorem C77_alias_partial : forall t a n rest, stops rest ->
  (exists x, t = [Tatom x] /\ a = Aatom x) \/ (exists u c, t = Tlpar :: u ++ [Trpar] /\ Sup true 1 u a c) ->
  parse_expression (t ++ Tatom (XName n) :: rest) = Ok (a, Tatom (XName n) :: rest).
Proof.
  intros t a n rest S H. unfold parse_expression. assert (ST : stop true rest) by (apply stops_stop; exact S).
  assert (NP : no_par rest) by (destruct rest as [|[]]; try exact I; discriminate S).
  assert (FIN : forall f b, (3 <= f)%nat -> expr_loop f true [] [b] false (Tatom (XName n) :: rest) = Ok (b, Tatom (XName n) :: rest)).
  { intros f b Hf. destruct f as [|[|f]]; [lia|lia|]. rewrite step_value by reflexivity. rewrite parse_value_atom by exact NP. cbn [bind]. rewrite finish_stop by exact ST. reflexivity. }
  remember (8 * length (t ++ Tatom (XName n) :: rest) + 8)%nat as f eqn:Ef.
  destruct H as [(x & -> & ->)|(u & c & -> & SU)].
  - cbn [app length] in *. destruct f as [|[|[|f]]]; [lia|lia|lia|]. rewrite parse_expr_S. rewrite step_value by reflexivity. rewrite parse_value_atom by exact I. cbn [bind]. apply FIN. lia.
  - destruct sup_parse as (PS & _). pose proof (whole true 1 u a c (PS _ _ _ _ _ SU)) as W.
    cbn [app length] in *. rewrite <- app_assoc in *. cbn [app length] in *. rewrite app_length in Ef. cbn [length] in Ef.
    destruct f as [|[|[|f]]]; [lia|lia|lia|]. rewrite parse_expr_S. rewrite step_value by reflexivity. rewrite parse_value_lpar. rewrite W; [|lia|now left]. cbn [bind]. apply FIN. lia.
Qed.
Print Assumptions C77_alias_partial.
Example C77_alias_nonvacuous : parse_expression [Tlpar; Tatom (XName 1); Top BAdd; Tatom (XName 2); Trpar; Tatom (XName 3); Tother 1] =
  Ok (A2 (OBin BAdd) (Aatom (XName 1)) (Aatom (XName 2)), [Tatom (XName 3); Tother 1]).
Proof.
  apply (C77_alias_partial [Tlpar; Tatom (XName 1); Top BAdd; Tatom (XName 2); Trpar]); [reflexivity|]. right. exists ([Tatom (XName 1)] ++ Top BAdd :: [Tatom (XName 2)]), TakesNone. split; [reflexivity|].
  eapply E_bin with (c1 := TakesNone); [cbn; lia|easy| |exact Logic.I|]; (apply E_val; [cbn; lia|apply V_atom]).
Qed.
(** SELECT a + b c: the expression is a, and b + c is what follows it (then a syntax error);
    the same for an index, a[1] c *)
Theorem C77_alias_refuted : exists t a n rest, Sup true 1 t a TakesNone /\ stops rest /\
  a = A2 (OBin BAdd) (an 1) (an 2) /\ parse_expression (t ++ Tatom (XName n) :: rest) = Ok (an 1, Tnode (A2 (OBin BAdd) (an 2) (an n)) :: rest).
Proof.
  exists (nm 1 ++ Top BAdd :: nm 2). eexists. exists 3, [Tother 1]. split; [|split; [reflexivity|split; [reflexivity|reflexivity]]].
  eapply E_bin with (c1 := TakesNone); [cbn; lia|easy| |exact Logic.I|]; (apply E_val; [cbn; lia|apply V_atom]).
Qed.
Print Assumptions C77_alias_refuted.
(** CASE without WHEN and ELSE is an error *)
Theorem C77_case_error rest : parse_expression (Tcase :: Tend :: rest) = Err.
Proof. unfold parse_expression. cbn [length]. replace (8 * S (S (length rest)) + 8)%nat with (S (S (S (S (8 * length rest + 20)))))%nat by lia. reflexivity. Qed.
Print Assumptions C77_case_error.
