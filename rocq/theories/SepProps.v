(** C89: the console executes the statements of its input, each once and in order. *)
From Coq Require Import String.
From Verif Require Import Base HttpModel UriModel SepModel SepSpec SepProofs.

(** One statement, whatever follows it: the block that is read is the statement. *)
Theorem C89_statement_partial : forall l tail, statement l -> lexemes_ok True l -> read_block (spelled l ++ tail) = Some (spelled l, tail).
Proof. intros l tail. apply statement_read. Qed.
Print Assumptions C89_statement_partial.

(** However the statements are typed into lines: what is executed is the statements, each once and in their order,
    and nothing is left. *)
Theorem C89_console_partial : forall lines ls, typed ls (input lines) ->
  map no_blanks (fst (console [] lines)) = map spelled ls /\ snd (console [] lines) = [] /\ executed lines = fst (console [] lines).
Proof.
  intros lines ls H. unfold executed. destruct (console [] lines) as [e left] eqn:E.
  destruct (console_typed [] lines [] ls e left (or_introl eq_refl) eq_refl) as (l1 & l2 & -> & H1 & H2 & H3 & H4); [cbn [app]; now rewrite app_nil_r|exact E|].
  rewrite app_nil_r in H2. destruct (typed_left _ _ H2 H3 H4) as [-> ->]. rewrite !app_nil_r. auto.
Qed.
Print Assumptions C89_console_partial.

(** At each line: only whole statements have been executed, from the first. *)
Theorem C89_whole_partial : forall lines more ls, typed ls (input (lines ++ more)) ->
  exists done todo, ls = done ++ todo /\ map no_blanks (fst (console [] lines)) = map spelled done /\ typed todo (snd (console [] lines) ++ input more).
Proof.
  intros lines more ls H. rewrite input_app in H. destruct (console [] lines) as [e left] eqn:E.
  destruct (console_typed (input more) lines [] ls e left (or_introl eq_refl) eq_refl H E) as (l1 & l2 & -> & H1 & H2 & _).
  exists l1, l2. auto.
Qed.
Print Assumptions C89_whole_partial.

(** For every input: what is executed is the input, cut into pieces; only blanks are left out. *)
Theorem C89_nothing_lost : forall lines, pieces (executed lines) (input lines).
Proof.
  intros lines. unfold executed. destruct (console [] lines) as [e left] eqn:E.
  destruct (console_pieces lines [] e left E) as (u & Hu & Hp). cbn [app] in Hu. rewrite Hu.
  apply pieces_app; [exact Hp|]. destruct left as [|c left]; [repeat constructor|]. cbn [nonempty]. rewrite <- (app_nil_r (c :: left)) at 2.
  apply (P_next [] (c :: left) [] []); repeat constructor.
Qed.
Print Assumptions C89_nothing_lost.

(** A block that has been read stays, whatever is typed behind it. *)
Theorem C89_more_input : forall buf more b rest, (exists u, buf = u ++ [10]) -> b <> [] -> read_block buf = Some (b, rest) ->
  read_block (buf ++ more) = Some (b, rest ++ more).
Proof. intros buf more b rest He Hb H. now destruct (read_more more buf b rest (or_intror He) H Hb). Qed.
Print Assumptions C89_more_input.

Section Examples.
Local Open Scope string_scope.
(** The END of a CASE before a comma is not seen: the block has no end, what follows waits for it. *)
Theorem C89_case_refuted : console [] [text "BEGIN SELECT CASE WHEN 1 THEN 2 END, 3; END;"; text "SELECT 1;"] =
  ([], text "BEGIN SELECT CASE WHEN 1 THEN 2 END, 3; END;" ++ [10] ++ text "SELECT 1;" ++ [10])%list.
Proof. reflexivity. Qed.
(** A semicolon in a name in backquotes ends the statement. *)
Theorem C89_backquote_refuted : fst (console [] [text "SELECT `a;b`;"]) = [text "SELECT `a;"; text "b`;"].
Proof. reflexivity. Qed.
(** IF NOT is taken for IF NOT EXISTS: its END ends the outer block. *)
Theorem C89_if_not_refuted : fst (console [] [text "BEGIN IF NOT a THEN SELECT 1; END; SELECT 2; END;"]) =
  [text "BEGIN IF NOT a THEN SELECT 1; END;"; text " SELECT 2;"; text " END"; text ";"].
Proof. reflexivity. Qed.
(** A comment behind IF: EXISTS is not seen and the statement has no end. *)
Theorem C89_comment_refuted : console [] [text "DROP TABLE IF -- c"; text "EXISTS t;"] = ([], text "DROP TABLE IF -- c" ++ [10] ++ text "EXISTS t;" ++ [10])%list.
Proof. reflexivity. Qed.
(** the hypotheses hold for: a comment, a block with a FOR, a CASE and a string with a semicolon in it, typed in three
    lines, and a second statement behind it *)
Definition W (s : string) : lexeme := Word (text s).
Definition S1 : lexeme := Space 32.
Definition ex_for : list lexeme := [W "for"; S1; W "x"; S1; W "in"; S1; Symbol 40; W "t"; Symbol 41; S1; W "SELECT"; S1].
Definition ex_case : list lexeme := [S1; W "x"; S1; W "then"; S1; W "2"; S1].
Definition ex_rest : list lexeme := [Space 10; Symbol 43; Quoted 39 (text "a;\'"); Semicolon; S1].
Definition ex_inner : list lexeme := (S1 :: [W "for"] ++ (tl ex_for ++ (W "case" :: ex_case ++ W "end" :: ex_rest)) ++ W "END" :: [Semicolon; S1])%list.
Definition ex_block : list lexeme :=
  ([Comment (text " a; b"); Space 10; W "Begin"; S1] ++ ex_for ++ [W "case"] ++ ex_case ++ [W "end"] ++ ex_rest ++ [W "END"; Semicolon; S1; W "end"; Semicolon])%list.
Definition ex_drop : list lexeme := [W "DROP"; S1; W "TABLE"; S1; W "if"; S1; W "exists"; S1; W "t"; Semicolon].
Definition ex_lines : list (list Z) :=
  [text "-- a; b"; text "Begin for x in (t) SELECT case x then 2 end"; text "+'a;\''; END; end; DROP TABLE if exists t;"].
Ltac not_kw := let K := fresh in intros K; exfalso; unfold keyword, word_is, W in K; cbn in K; intuition discriminate.
Ltac fine_tac := unfold W, S1; first [exact I | (cbn; lia) | (split; [discriminate|cbn; repeat (constructor; [unfold word_byte; lia|]); constructor]) | (cbn; intuition discriminate)
  | (split; [left; reflexivity|cbn; apply Q_plain; [lia|lia|]; apply Q_plain; [lia|lia|]; apply Q_escape; constructor]) | (cbn; unfold word_byte; lia)].
Ltac stand_tac := unfold W, S1; cbn [may_stand]; first [exact I | reflexivity | (split; [exact I|]; first [(intros _; split; exact I) | not_kw]) | (intros K; discriminate K)].
Ltac lexemes := match goal with |- lexemes_ok ?P (?x :: ?l) => change (fine x /\ may_stand P x l /\ lexemes_ok (separates x) l); refine (conj _ (conj _ _)); [try fine_tac|try stand_tac|lexemes] | |- lexemes_ok _ [] => exact I end.
Example C89_nonvacuous : typed [ex_block; ex_drop] (input ex_lines) /\ executed ex_lines = [spelled ex_block; 32 :: spelled ex_drop].
Proof.
  split; [|reflexivity].
  change (input ex_lines) with ([] ++ spelled ex_block ++ [32] ++ spelled ex_drop ++ [10])%list.
  assert (L : forall w, word_is w "begin" \/ word_is w "for" \/ word_is w "while" -> opener [Word w]) by (intros w H; now constructor).
  apply T_next; [constructor| | |exact I|apply T_next; [repeat constructor; lia| | |exact I|apply T_end; repeat constructor; lia]].
  - change ex_block with (([Comment (text " a; b"); Space 10] ++ ([W "Begin"] ++ ex_inner ++ Word (text "end") :: [])) ++ [Semicolon])%list.
    apply S_code. cbn [app]. do 2 (apply C_plain; [exact I|]).
    apply (C_block false [W "Begin"] ex_inner (text "end") []); [apply L; left; reflexivity|reflexivity| |constructor].
    apply C_plain; [exact I|].
    apply (C_block true [W "for"] (tl ex_for ++ (W "case" :: ex_case ++ W "end" :: ex_rest)) (text "END") [Semicolon; S1]); [apply L; right; left; reflexivity|reflexivity| |].
    + cbn [tl ex_for app]. repeat (apply C_plain; [exact I || not_kw|]). apply (C_case true (text "case") ex_case (text "end") ex_rest); [reflexivity|reflexivity| |].
      * unfold ex_case. repeat (apply X_plain; [exact I || not_kw|]). constructor.
      * unfold ex_rest. do 3 (apply C_plain; [exact I|]). apply C_semicolon; [reflexivity|]. apply C_plain; [exact I|]. constructor.
    + apply C_semicolon; [reflexivity|]. apply C_plain; [exact I|]. constructor.
  - unfold ex_block, ex_for, ex_case, ex_rest. cbn [app]. lexemes.
  - change ex_drop with ([W "DROP"; S1; W "TABLE"; S1; W "if"; S1; W "exists"; S1; W "t"] ++ [Semicolon])%list. apply S_code.
    do 4 (apply C_plain; [exact I || not_kw|]). 
    apply (C_if_exists false (text "if") [S1] (text "exists") S1 [W "t"]); [reflexivity|repeat constructor|left; reflexivity|exact I|]. repeat (apply C_plain; [exact I || not_kw|]). constructor.
  - unfold ex_drop. lexemes.
Qed.
End Examples.
Print Assumptions C89_case_refuted.
Print Assumptions C89_backquote_refuted.
Print Assumptions C89_if_not_refuted.
Print Assumptions C89_comment_refuted.
Print Assumptions C89_nonvacuous.
