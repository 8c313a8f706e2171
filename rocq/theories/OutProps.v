(** C86: the answer of a request is the JSON document of its rows. *)
From Coq Require Import Ascii String.
From Verif Require Import Base DecLib TimeModel TimeProps CrcProps Utf8Spec JsonModel JsonSpec JsonProofs JsonTextModel JsonTextSpec JsonTextProofs JsonTextProps CodecModel ValueModel.
From Verif Require LexModel LexProps Utf8Proofs.
From Verif Require Import OutModel OutSpec OutProofs.
Local Open Scope Z_scope.

(** The answer is a JSON text of the array of the rows, in order, every value under the name of its
    column, unless the limit of answers is reached.  lax = false: a text of RFC 8259.  Missing:
    strings that are not UTF-8 or, for lax = false, have other control characters
    (C86_control_refuted); infinities and NaN (C86_inf_refuted); reals within JSON values. *)
Theorem C86_answer_partial : forall g widen tz limit lax minimal pretty columns r jss,
  columns <> [] -> Forall identifier columns -> Forall2 (row_cells widen tz lax false columns) (rows_of r) jss ->
  exists t, jtext lax false (JArr (map (row_json minimal columns) jss)) t /\
    (output_write g widen tz limit minimal pretty columns r = Ok t \/
     (output_write g widen tz limit minimal pretty columns r = Err /\ limit <= Z.of_nat (List.length t))).
Proof. intros g widen tz limit lax minimal pretty columns r jss N I F. exact (bare_answer g widen tz limit lax minimal pretty columns r jss N I F). Qed.
Print Assumptions C86_answer_partial.
(** The same with doubles and vectors: the text of a finite double is what printf writes, which is
    taken to be a JSON number. *)
Theorem C86_reals_partial : forall g widen tz limit lax minimal pretty columns r jss, (forall d, finite d -> number (g d)) ->
  columns <> [] -> Forall identifier columns -> Forall2 (row_cells widen tz lax true columns) (rows_of r) jss ->
  exists t, otext g lax (JArr (map (row_json minimal columns) jss)) t /\
    (output_write g widen tz limit minimal pretty columns r = Ok t \/
     (output_write g widen tz limit minimal pretty columns r = Err /\ limit <= Z.of_nat (List.length t))).
Proof. intros g widen tz limit lax minimal pretty columns r jss G N I F. exact (real_answer g widen tz limit lax minimal pretty columns r jss G N I F). Qed.
Print Assumptions C86_reals_partial.
Lemma read_text sd v t : jtext true false v t -> ints_ok int_fit v -> exists bs, json_parse sd t = Ok (bs, []) /\ Enc v bs.
Proof.
  intros J I. destruct (parse_all sd) as [P _]. destruct (P v t J I [] [] [] Logic.I) as (bs & E & k & L & H). exists bs. split; [|exact E].
  rewrite app_nil_r in *. unfold json_parse. cbn [app List.length] in *. replace (2 * List.length t + 1)%nat with (k + (2 * List.length t + 1 - k))%nat by lia. rewrite H. destruct (2 * List.length t + 1 - k)%nat; reflexivity.
Qed.
(** The answer, read by the parser of amelie, gives back the rows.  Missing, besides: the least
    64-bit integer (C86_int_min_refuted). *)
Theorem C86_read_back_partial : forall g sd widen tz limit minimal pretty columns r jss t,
  columns <> [] -> Forall identifier columns -> Forall2 (row_cells widen tz true false columns) (rows_of r) jss ->
  Forall (Forall (ints_ok (fun z => - INT64_MAX <= z <= INT64_MAX))) jss ->
  output_write g widen tz limit minimal pretty columns r = Ok t ->
  exists bs, json_parse sd t = Ok (bs, []) /\ Enc (JArr (map (row_json minimal columns) jss)) bs.
Proof.
  intros g sd widen tz limit minimal pretty columns r jss t N I F Z O. destruct (bare_answer g widen tz limit true minimal pretty columns r jss N I F) as (t' & J & [E|[E _]]); [|congruence].
  assert (t' = t) by congruence. subst t'. apply read_text; [exact J|]. clear - Z. cbn [ints_ok]. induction Z as [|js jss H Z IH]; [exact Logic.I|]. cbn [map fold_right]. split; [|exact IH].
  unfold row_json. destruct minimal.
  - assert (A : ints_ok int_fit (JArr js)). { cbn [ints_ok]. clear - H. induction H as [|v js H F IH]; [exact Logic.I|]. split; [exact H|exact IH]. }
    destruct js as [|v [|v2 js]]; [exact A| |exact A]. now inversion H.
  - cbn [ints_ok]. clear - H. revert columns. induction H as [|v js H F IH]; intros [|k columns]; try exact Logic.I. cbn [combine fold_right snd]. split; [exact H|apply IH].
Qed.
Print Assumptions C86_read_back_partial.
(** The result of a JSON expression. *)
Theorem C86_expression_partial : forall g lax minimal pretty unwrap column v bs, identifier column ->
  json_wf v = true -> json_no_reals v = true -> strings_ok (characters lax) v -> Enc v bs ->
  exists t, output_write_json g minimal pretty column bs unwrap = Ok t /\ jtext lax false (expr_json minimal unwrap column v) t.
Proof.
  intros g lax minimal pretty unwrap column v bs I W R S E. destruct (export_as_ok g lax v bs pretty 0 W R S E) as (t & X & J).
  assert (A : exists h tl, bs = h :: tl /\ (h =? JSON_ARRAY) = is_array v).
  { unfold Enc in E. destruct v as [|b|z|b|s|l|l]; cbn [toks] in E; inversion E as [|t0 ts0 b0 bs0 H0 _]; subst; pose proof (tok_enc_head _ _ H0) as (h & r & -> & Hh); cbn [tok_tag_ok] in Hh;
    exists h, (r ++ bs0); (split; [reflexivity|cbn [is_array]; unfold JSON_ARRAY, JSON_OBJ, JSON_NULL, JSON_TRUE, JSON_FALSE in *; try destruct b; lia]). }
  destruct A as (h & tl & -> & A). unfold output_write_json. cbn [bind]. rewrite A, X. cbn [bind]. eexists. split; [reflexivity|].
  assert (O : jtext lax false (if minimal then v else JObj [(column, v)]) (if minimal then t else [123] ++ (if pretty then [10; 32; 32; 34] else [34]) ++ column ++ [34; 58; 32] ++ t ++ (if pretty then [10] else []) ++ [125])).
  { destruct minimal; [exact J|]. destruct pretty.
    - pose proof (jtext_obj lax [] [10; 32; 32] [10] column v t [] [] []) as Y. unfold field in Y. cbn [app combine fields_more] in *. rewrite <- ?app_assoc in *. cbn [app] in *. rewrite <- ?app_assoc in *.
      apply Y; [now (repeat constructor)..|reflexivity|now constructor|exact J|constructor].
    - pose proof (jtext_obj lax [] [] [] column v t [] [] []) as Y. unfold field in Y. cbn [app combine fields_more] in *. rewrite <- ?app_assoc in *. cbn [app] in *. rewrite <- ?app_assoc in *.
      apply Y; [now (repeat constructor)..|reflexivity|now constructor|exact J|constructor]. }
  unfold expr_json. destruct (unwrap && is_array v); cbn [negb app]; [rewrite app_nil_r; exact O|]. pose proof (jtext_arr lax _ _ [] [] O ltac:(constructor)) as Y. exact Y.
Qed.
Print Assumptions C86_expression_partial.
Lemma characters_bytes lax s : characters lax s -> bytes_ok s = true.
Proof.
  intros (l & -> & F). unfold text. induction F as [|c l H F IH]; [reflexivity|]. cbn [flat_map]. unfold bytes_ok in *. rewrite forallb_app, IH, Bool.andb_true_r. apply (Utf8Proofs.utf8_bytes c).
  destruct lax; [exact H|]. unfold scalar, code in *. lia.
Qed.
(** The answer for an error: an object with its message.  Missing: messages cut within a character
    (C86_error_refuted). *)
Theorem C86_error_partial : forall g lax m, characters lax (message m) ->
  exists t, output_write_error g m = Ok t /\ jtext lax false (JObj [(bytes_of "msg", JStr (message m))]) t.
Proof.
  intros g lax m C. unfold output_write_error.
  assert (U : utf8 8230 ++ [10] = lit_cut) by reflexivity. unfold message in *.
  assert (S : (List.length (if (512 <? List.length m)%nat then utf8 8230%Z ++ [10%Z] ++ skipn (List.length m - 512) m else m) <= 516)%nat).
  { destruct (Nat.ltb_spec 512 (List.length m)); [|lia]. rewrite app_assoc, U, app_length, skipn_length. cbn. lia. }
  apply export_as_ok.
  - cbn [json_wf forallb fst snd]. assert (Q : str_wf (if (512 <? List.length m)%nat then utf8 8230 ++ [10] ++ skipn (List.length m - 512) m else m) = true); [|rewrite Q; reflexivity].
    unfold str_wf. rewrite (characters_bytes lax _ C). cbn [andb]. apply Z.leb_le. clear - S. revert S. generalize (if (512 <? List.length m)%nat then utf8 8230 ++ [10] ++ skipn (List.length m - 512) m else m). intros l S. unfold INT32_MAX. lia.
  - reflexivity.
  - cbn [strings_ok fold_right fst snd]. split; [|split; [exact C|exact Logic.I]]. exists (bytes_of "msg"%string). split; [reflexivity|]. apply Forall_forall; intros c Ic; cbn in Ic; destruct lax; unfold code, scalar; lia.
  - unfold Enc. cbn [toks flat_map fst snd app]. apply (te_cons TObj _ [JSON_OBJ]); [reflexivity|].
    assert (K : tok_enc (TStr (bytes_of "msg"%string)) (json_write_raw lit_msg)) by (cbn; tauto).
    apply (te_cons _ _ _ _ K).
    destruct (512 <? List.length m)%nat eqn:E.
    + rewrite app_assoc in *. rewrite U in *. refine (te_cons _ _ (json_write_wide _) _ _ (te_cons TObjE [] [JSON_OBJ_END] [] eq_refl te_nil)). cbn [tok_enc]. tauto.
    + refine (te_cons _ _ (json_write_raw m) _ _ (te_cons TObjE [] [JSON_OBJ_END] [] eq_refl te_nil)). cbn [tok_enc]. tauto.
Qed.
Print Assumptions C86_error_partial.
(** The names that the scanner of SQL texts finds are identifiers. *)
Theorem C86_names : forall sd text ts w,
  (forall b s bits r, is_digit b = true -> sd (b :: s) = Some (bits, r) -> exists w, w <> [] /\ b :: s = w ++ r) ->
  bytes_ok text = true -> LexModel.lex_all sd (S (List.length text)) text = Ok ts -> In (LexModel.TName w) ts -> identifier w.
Proof.
  intros sd text ts w SD B H I. pose proof (LexProps.C85_sound sd text ts SD B H) as T. clear - T I. induction T as [s G|g u t ts s G Sp O T IH]; [destruct I|].
  destruct I as [->|I]; [|now apply IH]. inversion Sp; subst; try assumption.
  match goal with H : parts [_] |- _ => destruct H as [Q _]; exact (proj2 (Forall_inv Q)) end.
Qed.
Print Assumptions C86_names.

(** FALSE of the code: an infinity is written as printf does, which is no JSON *)
Theorem C86_inf_refuted : forall g widen tz sd, g (2047 * 2 ^ 52) = bytes_of "inf" ->
  exists t, output_write g widen tz 1000000 false false [bytes_of "x"] (Row [CVal (VDouble (2047 * 2 ^ 52))]) = Ok t /\ json_parse sd t = Err.
Proof.
  intros g widen tz sd G. eexists. split; [cbn [output_write output_row]; unfold output_row_obj; cbn [row_obj_plain Nat.ltb Nat.leb app at_order nth_error bind value_export]; rewrite G; vm_compute; reflexivity|vm_compute; reflexivity].
Qed.
Print Assumptions C86_inf_refuted.
(** FALSE of the code: a control character is written as it is, which RFC 8259 does not allow *)
Theorem C86_control_refuted : forall g widen tz, exists t, output_write g widen tz 1000000 true false [bytes_of "x"] (Row [CVal (VString [1])]) = Ok t /\ forall v, ~ jdoc false true v t.
Proof.
  intros g widen tz. exists [91; 34; 1; 34; 93]. split; [vm_compute; reflexivity|]. intros v (w1 & t & w2 & W1 & W2 & J & E).
  assert (F : Forall std_byte (w1 ++ t ++ w2)). { repeat (apply Forall_app; split); try now apply ws_std. destruct (jtext_std true) as [P _]. eapply P; eassumption. }
  rewrite <- E in F. inversion F as [|? ? _ F1]. inversion F1 as [|? ? _ F2]. inversion F2 as [|? ? F3 _]. subst. unfold std_byte in F3. cbn in F3. lia.
Qed.
Print Assumptions C86_control_refuted.
(** FALSE of the code: the parser of amelie does not read the least integer back *)
Theorem C86_int_min_refuted : forall g widen tz sd, exists t, output_write g widen tz 1000000 true false [bytes_of "x"] (Row [CVal (VInt INT64_MIN)]) = Ok t /\ json_parse sd t = Err.
Proof. intros g widen tz sd. exists (bytes_of "[-9223372036854775808]"%string). split; vm_compute; reflexivity. Qed.
Print Assumptions C86_int_min_refuted.
(** FALSE of the code: a message of 513 bytes or more is cut without regard to characters, which
    leaves a text that is not UTF-8 *)
Theorem C86_error_refuted : forall g sd, let m := flat_map (fun _ => [195; 169]) (seq 0 257) ++ [33] in
  characters false m /\ exists t, output_write_error g m = Ok t /\ json_parse sd t = Err.
Proof.
  intros g sd m. split.
  - exists (map (fun _ => 233) (seq 0 257) ++ [33]). split; [vm_compute; reflexivity|]. apply Forall_app. split; [|repeat constructor; unfold scalar; lia].
    apply Forall_forall. intros c I. apply in_map_iff in I as (i & <- & _). unfold scalar. lia.
  - eexists. split; [vm_compute; reflexivity|vm_compute; reflexivity].
Qed.
Print Assumptions C86_error_refuted.

Definition sample_row : list cell :=
  [CVal (VInt 7); CVal (VString (bytes_of "a""b"%string)); CJson (json_bytes (JObj [([107], JArr [JBool true])])); CVal (VDate 2451545); CVal VNull].
Example C86_nonvacuous : forall g widen,
  Forall identifier [bytes_of "id"%string; bytes_of "s_1"%string; bytes_of "j"%string; bytes_of "d"%string] /\
  row_cells widen None false false [bytes_of "id"%string; bytes_of "s_1"%string; bytes_of "j"%string; bytes_of "d"%string] sample_row
    [JInt 7; JStr (bytes_of "a""b"%string); JObj [([107], JArr [JBool true])]; JStr (bytes_of "2000-01-01"%string)] /\
  output_write g widen None 1000 false false [bytes_of "id"%string; bytes_of "s_1"%string; bytes_of "j"%string; bytes_of "d"%string] (Store [sample_row; sample_row]) =
    Ok (bytes_of "[{""id"": 7, ""s_1"": ""a\""b"", ""j"": {""k"": [true]}, ""d"": ""2000-01-01""}, {""id"": 7, ""s_1"": ""a\""b"", ""j"": {""k"": [true]}, ""d"": ""2000-01-01""}]"%string) /\
  output_write g widen None 1000 true false [bytes_of "id"%string] (Store [sample_row; sample_row]) = Ok (bytes_of "[7, 7]"%string) /\
  output_write g widen None 10 true false [bytes_of "id"%string; bytes_of "s_1"%string] (Store [sample_row; sample_row]) = Err /\
  output_write g widen None 1000 false true [bytes_of "id"%string; bytes_of "s"%string] (Row sample_row) =
    Ok (bytes_of "[{"%string ++ [10] ++ bytes_of "  ""id"": 7,"%string ++ [10] ++ bytes_of "  ""s"": ""a\""b"""%string ++ [10] ++ bytes_of "}]"%string) /\
  output_write_json g false false (bytes_of "result"%string) (json_bytes (JInt 5)) true = Ok (bytes_of "[{""result"": 5}]"%string) /\
  output_write_error g (bytes_of "name expected"%string) = Ok (bytes_of "{""msg"": ""name expected""}"%string).
Proof.
  intros g widen. split; [cbn; unfold identifier; repeat (apply Forall_cons; [repeat (apply Forall_cons; [unfold name_char, letter, digit; lia|]); apply Forall_nil|]); apply Forall_nil|]. split.
  { split; [|reflexivity]. cbn [firstn sample_row List.length]. repeat apply Forall2_cons; [apply cj_int; lia| | |apply cj_date; vm_compute; reflexivity|constructor].
    - apply cj_string. exists (bytes_of "a""b"%string). split; [reflexivity|]. apply Forall_forall. intros c I. cbn in I. unfold scalar. lia.
    - apply cj_json; [reflexivity|reflexivity| |apply Enc_bytes]. cbn. repeat split; try exact Logic.I. exists [107]. split; [reflexivity|]. apply Forall_forall. intros c I. cbn in I. unfold scalar. lia. }
  repeat split; vm_compute; reflexivity.
Qed.
(** what printf writes for 0.5 and -1e+20 are numbers of JSON *)
Example C86_reals_nonvacuous : finite (1022 * 2 ^ 52) /\ number (bytes_of "0.5"%string) /\ number (bytes_of "-1e+20"%string) /\ ~ finite (2047 * 2 ^ 52).
Proof.
  split; [split; vm_compute; [split; congruence|congruence]|]. split; [|split].
  - exists 0, [48], [46; 53], []. split; [reflexivity|]. split; [exists false, [48]; repeat split; now left|]. split; [right; exists [53]; repeat split; discriminate|now left].
  - exists (-1), [45; 49], [], [101; 43; 50; 48]. split; [reflexivity|]. split; [exists true, [49]; repeat split; right; exists 49, []; split; [reflexivity|discriminate]|]. split; [now left|].
    right. exists 101, [43], [50; 48]. repeat split; cbn; auto; discriminate.
  - intros [_ H]. apply H. vm_compute. reflexivity.
Qed.
