(** C85: a statement is read as the tokens it spells. *)
From Coq Require Import Ascii String.
From Verif Require Import Base DecLib Utf8Model Utf8Spec JsonModel JsonTextModel JsonTextProofs LexModel LexSpec LexProofs.
Local Open Scope Z_scope.

(** Every text of tokens is read as these tokens.  [value] are the values of the
    real literals, [sd] is strtod of the C library, of which it is assumed that it
    reads a real literal to its end.  Missing: literals whose integer digits are
    more than 9223372036854775807 (C85_int_min_refuted, C85_long_real_refuted). *)
Theorem C85_read_partial : forall sd (value : list Z -> Z -> Prop) ts text,
  (forall w bits rest, real_text w -> value w bits ->
     (match rest with [] => True | d :: _ => ~ digit d /\ d <> 46 /\ d <> 101 /\ d <> 69 end) -> sd (w ++ rest) = Some (bits, rest)) ->
  sql_text (fun w bits => real_text w /\ value w bits) (fun w t rest => in_range w /\ ends w t rest) ts text ->
  lex_all sd (S (List.length text)) text = Ok ts.
Proof. intros sd value ts text SD T. eapply all_ok; [exact SD|exact T|lia]. Qed.
Print Assumptions C85_read_partial.

(** One token: also its position (pos_start) and the position behind it. *)
Theorem C85_position_partial : forall sd (value : list Z -> Z -> Prop) g w t rest,
  (forall w bits rest, real_text w -> value w bits ->
     (match rest with [] => True | d :: _ => ~ digit d /\ d <> 46 /\ d <> 101 /\ d <> 69 end) -> sd (w ++ rest) = Some (bits, rest)) ->
  gap g -> spelled (fun w bits => real_text w /\ value w bits) w t -> in_range w -> ends w t rest ->
  lex_next sd true (g ++ w ++ rest) = Ok (t, w ++ rest, rest).
Proof. intros sd value g w t rest SD. apply next_ok. exact SD. Qed.
Print Assumptions C85_position_partial.

(** What is read is what the text spells, for any bytes. *)
Theorem C85_sound : forall sd text ts,
  (forall b s bits r, is_digit b = true -> sd (b :: s) = Some (bits, r) -> exists w, w <> [] /\ b :: s = w ++ r) ->
  bytes_ok text = true -> lex_all sd (S (List.length text)) text = Ok ts ->
  sql_text (fun w bits => exists rest, sd (w ++ rest) = Some (bits, rest)) (fun _ _ _ => True) ts text.
Proof. intros sd text ts SD B H. exact (all_sound sd SD _ _ _ B H). Qed.
Print Assumptions C85_sound.

(** Any bytes are read to the end or refused; nothing outside of the text is read. *)
Theorem C85_safe : forall sd text,
  (forall b s bits r, is_digit b = true -> sd (b :: s) = Some (bits, r) -> exists w, w <> [] /\ b :: s = w ++ r) ->
  bytes_ok text = true -> lex_all sd (S (List.length text)) text <> UB.
Proof. intros sd text SD B. apply all_safe; [exact SD|exact B|lia]. Qed.
Print Assumptions C85_safe.

(** A string literal has the value it stands for.  Missing: a single quote with a
    backslash (C85_quote_refuted). *)
Theorem C85_string_partial : forall sd q s v rest, q = 34 \/ q = 39 -> denotes most_escapes q s v ->
  exists e, lex_next sd true (q :: s ++ q :: rest) = Ok (TString s e, q :: s ++ q :: rest, rest) /\ string_value s e = Ok v.
Proof.
  intros sd q s v rest Q D. exists (has92 s). split; [|eapply denotes_value; exact D].
  rewrite <- (app_nil_l (q :: s ++ q :: rest)) at 1. rewrite next_gap; [|constructor|].
  - pose proof (word_string sd q s (has92 s) rest Q (denotes_body _ _ _ _ most_range D)) as W. cbn [app] in W. rewrite <- app_assoc in W. cbn [app] in W. apply W. now apply has_escape_92.
  - split; [unfold is_space; lia|]. intros [-> _]. lia.
Qed.
Print Assumptions C85_string_partial.

(** A token that was pushed back is read again. *)
Fixpoint read_n (sd : list Z -> option (Z * list Z)) (n : nat) (x : lex) : res (list tok * lex) :=
  match n with O => Ok ([], x) | S n => do (t, y) <- lex_read sd x; do (l, z) <- read_n sd n y; Ok (t :: l, z) end.
Theorem C85_push_back : forall sd n x ts y, read_n sd n x = Ok (ts, y) ->
  read_n sd n (fold_right (fun t x => lex_push x t) y ts) = Ok (ts, y).
Proof.
  intros sd n. induction n as [|n IH]; intros x ts y H; cbn [read_n] in *; [injection H as <- <-; reflexivity|].
  destruct (lex_read sd x) as [[t z]| |]; cbn [bind] in H; try discriminate. destruct (read_n sd n z) as [[l z']| |] eqn:E; cbn [bind] in H; try discriminate. injection H as <- <-.
  cbn [fold_right]. assert (P : forall u, lex_read sd (lex_push u t) = Ok (t, u)) by (intros []; reflexivity). rewrite P. cbn [bind]. rewrite (IH _ _ _ E). reflexivity.
Qed.
Print Assumptions C85_push_back.

(** FALSE of the code: the value of '\'' is a byte that is never written (the scanner
    takes the quote, but escape.h has no case for it). *)
Theorem C85_quote_refuted : ~ forall sd q s v rest, q = 34 \/ q = 39 -> denotes sql_escapes q s v ->
  exists e, lex_next sd true (q :: s ++ q :: rest) = Ok (TString s e, q :: s ++ q :: rest, rest) /\ string_value s e = Ok v.
Proof.
  intros H. destruct (H (fun _ => None) 39 [105; 116; 92; 39; 115] [105; 116; 39; 115] [] (or_intror eq_refl)) as (e & E & V).
  - apply (denotes_char _ _ 105); [unfold code; lia|lia|lia|]. apply (denotes_char _ _ 116); [unfold code; lia|lia|lia|]. apply denotes_escape; [cbn; tauto|]. apply (denotes_char _ _ 115 [] []); [unfold code; lia|lia|lia|constructor].
  - vm_compute in E. injection E as <-. vm_compute in V. discriminate V.
Qed.
Print Assumptions C85_quote_refuted.

(** FALSE of the code: the number -9223372036854775808 can not be written: its digits
    are refused, whatever is in front of them. *)
Theorem C85_int_min_refuted : ~ forall sd ts text,
  sql_text (fun _ _ => False) (fun w t rest => ends w t rest) ts text ->
  (forall z, In (TInt z) ts -> z <= 9223372036854775808) -> lex_all sd (S (List.length text)) text = Ok ts.
Proof.
  intros H. specialize (H (fun _ => None) [TSym 45; TInt 9223372036854775808] [45; 57; 50; 50; 51; 51; 55; 50; 48; 51; 54; 56; 53; 52; 55; 55; 53; 56; 48; 56]).
  assert (E : lex_all (fun _ => None) 21 [45; 57; 50; 50; 51; 51; 55; 50; 48; 51; 54; 56; 53; 52; 55; 55; 53; 56; 48; 56] = Err) by (vm_compute; reflexivity).
  cbn [List.length] in H. rewrite E in H. assert (X : @Err (list tok) = Ok [TSym 45; TInt 9223372036854775808]); [|discriminate X]. apply H.
  - apply (text_word _ _ [] [45]); [constructor|apply sp_symbol; cbn; tauto| |].
    + intros d r Er. injection Er as <- _. split; [|lia]. intros o I. cbn in I. repeat (destruct I as [I|I]; [discriminate|]). contradiction.
    + apply (text_word _ _ [] [57; 50; 50; 51; 51; 55; 50; 48; 51; 54; 56; 53; 52; 55; 55; 53; 56; 48; 56] _ [] []); [constructor| | |constructor; left; constructor].
      * change 9223372036854775808 with (num [57; 50; 50; 51; 51; 55; 50; 48; 51; 54; 56; 53; 52; 55; 55; 53; 56; 48; 56]). apply sp_int; [discriminate|]. unfold digits_text, digit. repeat constructor; lia.
      * intros d r Er. discriminate.
  - intros z [I|[I|[]]]; [discriminate|]. injection I as <-. lia.
Qed.
Print Assumptions C85_int_min_refuted.

(** FALSE of the code: 12345678901234567890.5 is refused ("int overflow"), although it
    is a real: its point comes after more than 19 digits. *)
Theorem C85_long_real_refuted : exists w, real_text w /\ forall sd, lex_next sd true w = Err.
Proof.
  exists [49; 50; 51; 52; 53; 54; 55; 56; 57; 48; 49; 50; 51; 52; 53; 54; 55; 56; 57; 48; 46; 53]. split; [|intros sd; vm_compute; reflexivity].
  exists [49; 50; 51; 52; 53; 54; 55; 56; 57; 48; 49; 50; 51; 52; 53; 54; 55; 56; 57; 48], [46; 53], [].
  split; [reflexivity|]. split; [discriminate|]. split; [unfold digits_text, digit; repeat constructor; lia|]. split; [right; exists [53]; split; [reflexivity|unfold digits_text, digit; repeat constructor; lia]|].
  split; [left; reflexivity|]. left. discriminate.
Qed.
Print Assumptions C85_long_real_refuted.

(** A statement that meets the hypotheses:
    {SELECT a.*, x+1 -- note
     FROM t WHERE n<>'it'} *)
Definition example_text : list Z :=
  text_of "SELECT a.*, x+1 -- note"%string ++ [10] ++ text_of " From `t` WHERE n<>'it'"%string.
Example C85_read_nonvacuous : lex_all (fun _ => None) 60 example_text = Ok
  [TKeyword 103; TStar (text_of "a.*"%string); TSym 44; TName (text_of "x"%string); TSym 43; TInt 1; TKeyword 48; TName (text_of "t"%string); TKeyword 138;
   TName (text_of "n"%string); TOp LNeq; TString (text_of "it"%string) false].
Proof. vm_compute. reflexivity. Qed.
Example C85_text_nonvacuous : sql_text (fun _ _ => False) (fun w t rest => in_range w /\ ends w t rest)
  [TKeyword 103; TName [120]; TOp LLte; TInt 10] (text_of "SELECT x<=10"%string).
Proof.
  assert (R : forall w, (match first_digits w with [] => True | _ => False end) -> in_range w) by (intros w; unfold in_range; destruct (first_digits w); [cbn; lia|contradiction]).
  apply (text_word _ _ [] (text_of "SELECT"%string) _ _ (text_of " x<=10"%string)); [constructor|apply sp_keyword; eexists; split; reflexivity| |].
  { split; [apply R; exact I|]. intros d r E. injection E as <- _. right. unfold name_char, letter, digit. lia. }
  apply (text_word _ _ [32] [120] _ _ (text_of "<=10"%string)); [constructor; [cbn; auto|constructor]| | |].
  { apply sp_name; [split; [constructor; [split; [discriminate|constructor; [unfold name_char, letter; lia|constructor]]|constructor]|exists 120, [], []; split; [reflexivity|unfold letter; lia]]|].
    intros k (name & Hn & E). cbn in E. assert (L : Forall (fun s => (2 <= String.length s)%nat) sql_keywords) by (repeat constructor). apply nth_error_In in Hn. rewrite Forall_forall in L. specialize (L _ Hn).
    destruct name as [|a [|b name]]; cbn in L, E; try lia; discriminate. }
  { split; [apply R; exact I|]. intros d r E. injection E as <- _. right. unfold name_char, letter, digit. lia. }
  apply (text_word _ _ [] [60; 61] _ _ [49; 48]); [constructor|apply sp_two; cbn; tauto|split; [apply R; exact I|intros d r _; exact I]|].
  apply (text_word _ _ [] [49; 48] _ _ []); [constructor|change (TInt 10) with (TInt (num [49; 48])); apply sp_int; [discriminate|unfold digits_text, digit; repeat constructor; lia]|split; [unfold in_range; vm_compute; discriminate|intros d r E; discriminate]|].
  constructor. left. constructor.
Qed.
