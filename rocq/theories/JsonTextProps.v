(** C29: JSON text round trip; C30: escapes; C66: the parser accepts the texts of the standard. *)
From Verif Require Import Base DecLib TimeModel TimeProps CodecProps CrcProps Utf8Model Utf8Spec Utf8Proofs JsonModel JsonSpec JsonProofs JsonTextModel JsonTextSpec JsonTextProofs.
From Coq Require Import String.
Local Open Scope Z_scope.

(** ** C30 *)
(** every byte string *)
Theorem C30_round_trip s : unescape false (escape s) = Ok s.
Proof.
  induction s as [|b s IH]; [reflexivity|]. unfold escape in *. cbn [flat_map]. unfold escape_byte at 1.
  repeat match goal with |- context [if b =? ?k then [92; ?e] else _] => destruct (Z.eqb_spec b k) as [Ek|]; [cbn [app unescape Z.eqb Pos.eqb andb negb unescape_byte]; rewrite IH, Ek; reflexivity|] end.
  cbn [app unescape]. replace (b =? 92) with false by lia. cbn [andb negb]. rewrite IH. reflexivity.
Qed.
Print Assumptions C30_round_trip.
(** the result is defined exactly for these strings, and is then the text they stand for *)
Theorem C30_defined_partial s r : unescape false s = Ok r <-> known_escapes s r.
Proof. apply unescape_defined. Qed.
Print Assumptions C30_defined_partial.
(** FALSE of the code in general: an escape that is not known, here the escapes \u0041, \/ and \'
    of JSON and SQL, leaves a byte of the result unwritten *)
Theorem C30_unknown_refuted : unescape false (bytes_of "\u0041") = UB /\ unescape false (bytes_of "a\/b") = UB /\ unescape false (bytes_of "it\'s") = UB.
Proof. vm_compute. auto. Qed.
Print Assumptions C30_unknown_refuted.
Example C30_nonvacuous : escape [34; 10; 65; 92; 200] = [92; 34; 92; 110; 65; 92; 92; 200] /\ known_escapes (bytes_of "a\n") [97; 10] /\ escape [7] = [7].
Proof. split; [reflexivity|]. split; [|reflexivity]. vm_compute. apply ke_char; [lia|]. apply ke_esc; [cbn; tauto|constructor]. Qed.

(** ** C29 *)
Lemma jstr_lax ext s t : jstr false ext s t -> jstr true ext s t.
Proof.
  induction 1; [constructor|apply js_char; [now apply plain_lax|assumption]|eapply js_esc; eassumption|now apply js_solidus|eapply js_u; eassumption].
Qed.
Lemma jtext_lax : (forall v t, jtext false false v t -> jtext true false v t) /\ (forall vs t, jitems false false vs t -> jitems true false vs t) /\ (forall fs t, jfields false false fs t -> jfields true false fs t).
Proof.
  apply jtext_all; intros; try (constructor; assumption).
  - constructor. now apply jstr_lax.
  - apply jf_one; try assumption. now apply jstr_lax.
  - apply jf_more; try assumption. now apply jstr_lax.
Qed.
(** the text written for a value, compact or indented, is a JSON text of that value: a standard one
    if the strings have no other control characters than those with an escape *)
Theorem C29_export_text g v bs rest pretty lax : json_wf v = true -> json_no_reals v = true -> strings_ok (string_ok lax) v -> Enc v bs ->
  exists t, json_export g pretty (bs ++ rest) = Ok (t, rest) /\ jtext lax false v t.
Proof.
  intros W R S E. unfold json_export. destruct (export_ok g lax v bs rest (List.length (bs ++ rest)) pretty 0%nat W R S E) as (t & X & J); [rewrite app_length; lia|]. exists t. auto.
Qed.
Print Assumptions C29_export_text.
(** integers the parser can read *)
Lemma ints_weaken v : json_wf v = true -> ints_ok (fun z => z <> INT64_MIN) v -> ints_ok int_fit v.
Proof.
  induction v as [|b|z|b|s|l IH|l IH] using json_ind'; intros W I; try exact Logic.I.
  - cbn [json_wf ints_ok] in *. unfold int_fit, INT64_MIN, INT64_MAX in *. lia.
  - cbn [json_wf ints_ok] in *. induction IH as [|[k v] l Hv Hl IHl]; [exact Logic.I|]. cbn [forallb fold_right fst snd] in *. apply andb_prop in W as [W1 W2]. apply andb_prop in W1 as [_ W1]. destruct I as [I1 I2]. split; [now apply Hv|now apply IHl].
  - cbn [json_wf ints_ok] in *. induction IH as [|v l Hv Hl IHl]; [exact Logic.I|]. cbn [forallb fold_right] in *. apply andb_prop in W as [W1 W2]. destruct I as [I1 I2]. split; [now apply Hv|now apply IHl].
Qed.
(** export and parse: the value comes back, for strings in UTF-8, without reals and without the
    least 64-bit integer *)
Theorem C29_round_trip_partial g sd v bs pretty : json_wf v = true -> json_no_reals v = true -> strings_ok (string_ok true) v -> ints_ok (fun z => z <> INT64_MIN) v -> Enc v bs ->
  exists t bs', json_export g pretty bs = Ok (t, []) /\ json_parse sd t = Ok (bs', []) /\ Enc v bs'.
Proof.
  intros W R S I E. destruct (C29_export_text g v bs [] pretty true W R S E) as (t & X & J). rewrite app_nil_r in X. exists t.
  destruct (parse_all sd) as [P _]. destruct (P v t J (ints_weaken v W I) [] [] [] Logic.I) as (bs' & E' & k & L & H). exists bs'. split; [exact X|]. split; [|exact E'].
  rewrite app_nil_r in *. unfold json_parse. cbn [app List.length] in *. replace (2 * List.length t + 1)%nat with (k + (2 * List.length t + 1 - k))%nat by lia. rewrite H. destruct (2 * List.length t + 1 - k)%nat; reflexivity.
Qed.
Print Assumptions C29_round_trip_partial.
(** FALSE of the code for the least 64-bit integer: its text is rejected *)
Theorem C29_int_min_refuted g sd : json_wf (JInt INT64_MIN) = true /\ exists t, json_export g false (json_bytes (JInt INT64_MIN)) = Ok (t, []) /\ json_parse sd t = Err.
Proof. split; [reflexivity|]. exists (bytes_of "-9223372036854775808"). split; vm_compute; reflexivity. Qed.
Print Assumptions C29_int_min_refuted.
(** and for a string that is not UTF-8 *)
Theorem C29_not_utf8_refuted g sd : json_wf (JStr [65; 255]) = true /\ exists t, json_export g false (json_bytes (JStr [65; 255])) = Ok (t, []) /\ json_parse sd t = Err.
Proof. split; [reflexivity|]. exists [34; 65; 255; 34]. split; vm_compute; reflexivity. Qed.
Print Assumptions C29_not_utf8_refuted.
(** the bytes of a standard text *)
Definition std_byte (b : Z) : Prop := 32 <= b \/ In b [9; 10; 13].
Lemma ws_std w : ws w -> Forall std_byte w.
Proof. intros H. eapply Forall_impl; [|exact H]. intros b I. unfold std_byte. cbn in *. lia. Qed.
Lemma digits_std ds : forallb is_digit ds = true -> Forall std_byte ds.
Proof. intros H. apply Forall_forall. intros x I. rewrite forallb_forall in H. specialize (H x I). unfold is_digit, std_byte in *. lia. Qed.
Lemma hex_std b w : hex_value b = Some w -> std_byte b.
Proof. unfold hex_value, std_byte. intros H. left. destruct ((48 <=? b) && (b <=? 57)) eqn:E1; [lia|]. destruct ((65 <=? b) && (b <=? 70)) eqn:E2; [lia|]. destruct ((97 <=? b) && (b <=? 102)) eqn:E3; [lia|discriminate]. Qed.
Lemma jstr_std ext s t : jstr false ext s t -> Forall std_byte t.
Proof.
  induction 1 as [|c s t P J IH|e c s t I J IH|s t E J IH|a b c d wa wb wc wd s t E Ha Hb Hc Hd S J IH]; [constructor| | | |].
  - apply Forall_app. split; [|exact IH]. destruct P as (_ & _ & Sc & L). assert (Hc : code c) by (unfold scalar, code in *; lia).
    destruct (utf8_head c Hc) as (b & t' & -> & A & B & F). constructor; [unfold std_byte; lia|]. eapply Forall_impl; [|exact F]. unfold std_byte. lia.
  - constructor; [unfold std_byte; lia|]. constructor; [|exact IH]. unfold std_byte. cbn in I. left. repeat (destruct I as [I|I]; [injection I as <- _; lia|]). destruct I.
  - constructor; [unfold std_byte; lia|]. constructor; [unfold std_byte; lia|exact IH].
  - constructor; [unfold std_byte; lia|]. constructor; [unfold std_byte; lia|]. repeat (constructor; [eapply hex_std; eassumption|]). exact IH.
Qed.
Lemma quoted_std t : Forall std_byte t -> Forall std_byte (quoted t).
Proof. intros H. unfold quoted. constructor; [unfold std_byte; lia|]. apply Forall_app. split; [exact H|constructor; [unfold std_byte; lia|constructor]]. Qed.
Lemma jtext_std ext : (forall v t, jtext false ext v t -> Forall std_byte t) /\ (forall vs t, jitems false ext vs t -> Forall std_byte t) /\ (forall fs t, jfields false ext fs t -> Forall std_byte t).
Proof.
  assert (S : forall b, 32 <= b -> std_byte b) by (unfold std_byte; lia).
  apply jtext_all; intros; try (repeat (constructor; [apply S; lia|]); constructor).
  - destruct H as (neg & ds & -> & D & _). apply Forall_app. split; [destruct neg; [constructor; [apply S; lia|constructor]|constructor]|now apply digits_std].
  - apply quoted_std. eapply jstr_std; eassumption.
  - constructor; [apply S; lia|]. apply Forall_app. split; [now apply ws_std|constructor; [apply S; lia|constructor]].
  - constructor; [apply S; lia|]. apply Forall_app. split; [assumption|constructor; [apply S; lia|constructor]].
  - constructor; [apply S; lia|]. apply Forall_app. split; [now apply ws_std|constructor; [apply S; lia|constructor]].
  - constructor; [apply S; lia|]. apply Forall_app. split; [assumption|constructor; [apply S; lia|constructor]].
  - repeat (apply Forall_app; split); try assumption; now apply ws_std.
  - repeat (apply Forall_app; split); try assumption; try now apply ws_std. constructor; [apply S; lia|assumption].
  - repeat (apply Forall_app; split); try assumption; try now apply ws_std. + eapply quoted_std, jstr_std; eassumption. + constructor; [apply S; lia|]. repeat (apply Forall_app; split); try assumption; now apply ws_std.
  - repeat (apply Forall_app; split); try assumption; try now apply ws_std. + eapply quoted_std, jstr_std; eassumption. + constructor; [apply S; lia|]. repeat (apply Forall_app; split); try assumption; try now apply ws_std. constructor; [apply S; lia|assumption].
Qed.
(** FALSE of the code: the exported text is not always a text of the standard, control characters
    without a short escape are written as they are *)
Theorem C29_control_refuted g : json_wf (JStr [1]) = true /\ exists t, json_export g false (json_bytes (JStr [1])) = Ok (t, []) /\ forall v, ~ jdoc false true v t.
Proof.
  split; [reflexivity|]. exists [34; 1; 34]. split; [vm_compute; reflexivity|]. intros v (w1 & t & w2 & W1 & W2 & J & E).
  assert (F : Forall std_byte (w1 ++ t ++ w2)). { repeat (apply Forall_app; split); try now apply ws_std. destruct (jtext_std true) as [P _]. eapply P; eassumption. }
  rewrite <- E in F. inversion F as [|? ? _ F1]. inversion F1 as [|? ? F2 _]. subst. unfold std_byte in F2. cbn in F2. lia.
Qed.
Print Assumptions C29_control_refuted.
Definition sample_json : json := JObj [(bytes_of "k"%string, JArr [JInt (-5); JStr [34; 10; 195; 169]; JNull]); ([], JObj [])].
Example C29_nonvacuous g sd : json_wf sample_json = true /\ json_no_reals sample_json = true /\ strings_ok (string_ok true) sample_json /\ ints_ok (fun z => z <> INT64_MIN) sample_json /\
  json_export g false (json_bytes sample_json) = Ok (bytes_of "{""k"": [-5, ""\""\n"%string ++ [195; 169] ++ bytes_of """, null], """": {}}"%string, []) /\
  json_export g true (json_bytes (JObj [([97], JInt 1); ([98], JArr [])])) = Ok (bytes_of "{"%string ++ [10] ++ bytes_of "  ""a"": 1,"%string ++ [10] ++ bytes_of "  ""b"": []"%string ++ [10] ++ bytes_of "}"%string, []) /\
  json_parse sd (bytes_of " { ""a"" :[1 ,tRue], 'b':{}}x"%string) = Ok (json_bytes (JObj [([97], JArr [JInt 1; JBool true]); ([98], JObj [])]), [120]).
Proof.
  split; [reflexivity|]. split; [reflexivity|]. split.
  { cbn [strings_ok sample_json fold_right fst snd]. repeat split; try exact Logic.I; [exists [107]|exists [34; 10; 233]|exists []]; (split; [reflexivity|]); repeat constructor; cbn [char_ok]; unfold code; lia. }
  split; [cbn; unfold INT64_MIN; repeat split; lia|]. split; [vm_compute; reflexivity|]. split; vm_compute; reflexivity.
Qed.

(** ** C66 *)
(** every text of the standard without the escapes \/ and \u, without numbers that have a fraction
    or an exponent and whose integers are in the range is parsed to its value *)
Theorem C66_parse_partial sd v doc : jdoc false false v doc -> ints_ok (fun z => - INT64_MAX <= z <= INT64_MAX) v -> exists bs rest, json_parse sd doc = Ok (bs, rest) /\ Enc v bs /\ ws rest.
Proof.
  intros (w1 & t & w2 & W1 & W2 & J & E) I. apply (parse_doc sd v doc); [|exact I]. exists w1, t, w2. destruct jtext_lax as [X _]. auto.
Qed.
Print Assumptions C66_parse_partial.
(** whatever text is accepted, what is stored is the form of one value: all reads of it succeed *)
Theorem C66_sound sd text bs rest : (forall l b r, sd l = Some (b, r) -> (exists a, l = a ++ r) /\ 0 <= b < 2 ^ 64) -> bytes_ok text = true -> Z.of_nat (List.length text) <= INT32_MAX ->
  json_parse sd text = Ok (bs, rest) -> exists v, json_wf v = true /\ Enc v bs /\ exists a, text = a ++ rest.
Proof. intros Hs B L H. destruct (parse_sound sd Hs text bs rest B L H) as (v & W & E & S). exists v. auto. Qed.
Print Assumptions C66_sound.
(** the parser terminates, and it neither reads behind the text nor leaves a byte unwritten if the
    text has no backslash *)
Theorem C66_safe_partial sd text : (forall l b r, sd l = Some (b, r) -> (exists a, l = a ++ r) /\ 0 <= b < 2 ^ 64) -> ~ In 92 text -> json_parse sd text <> UB.
Proof. intros Hs N. apply (loop_safe sd Hs); [cbn [List.length]; lia|exact N]. Qed.
Print Assumptions C66_safe_partial.
(** what is accepted: exactly the values of the grammar [ltext], a superset of the standard; the
    text behind the value is left.  Numbers with a fraction or an exponent are left out: strtod is
    taken to fail *)
Theorem C66_accepted_partial text bs rest : bytes_ok text = true -> json_parse (fun _ => None) text = Ok (bs, rest) ->
  exists v w t, sp w /\ ltext v t /\ text = w ++ t ++ rest /\ Enc v bs.
Proof. intros B H. exact (parse_text text bs rest B H). Qed.
Print Assumptions C66_accepted_partial.
(** FALSE of the code: standard texts with \u or \/ have an unwritten byte; the least 64-bit integer
    is rejected; text behind the value is not an error *)
Theorem C66_escape_refuted sd : (exists v doc, jdoc false true v doc /\ json_parse sd doc = UB) /\ (exists doc, jdoc false true (JStr [65]) doc /\ json_parse sd doc = UB).
Proof.
  split.
  - exists (JStr [47]), (bytes_of """\/"""%string). split; [|vm_compute; reflexivity]. exists [], (bytes_of """\/"""%string), []. split; [constructor|]. split; [constructor|]. split; [|reflexivity].
    apply (jt_str false true [47] [92; 47]). apply js_solidus; [reflexivity|constructor].
  - exists (bytes_of """\u0041"""%string). split; [|vm_compute; reflexivity]. exists [], (bytes_of """\u0041"""%string), []. split; [constructor|]. split; [constructor|]. split; [|reflexivity].
    apply (jt_str false true [65] [92; 117; 48; 48; 52; 49]). pose proof (js_u false true 48 48 52 49 0 0 4 1 [] [] eq_refl eq_refl eq_refl eq_refl eq_refl) as X. apply X; [unfold scalar; lia|constructor].
Qed.
Print Assumptions C66_escape_refuted.
Theorem C66_int_min_refuted sd : exists doc, jdoc false false (JInt INT64_MIN) doc /\ json_parse sd doc = Err.
Proof.
  exists (bytes_of "-9223372036854775808"%string). split; [|vm_compute; reflexivity]. exists [], (bytes_of "-9223372036854775808"%string), []. split; [constructor|]. split; [constructor|]. split; [|reflexivity].
  apply jt_int. exists true, (bytes_of "9223372036854775808"%string). split; [reflexivity|]. split; [reflexivity|]. split; [right; eexists; eexists; split; [reflexivity|vm_compute; discriminate]|vm_compute; reflexivity].
Qed.
Print Assumptions C66_int_min_refuted.
Theorem C66_garbage_refuted sd : exists text bs rest, json_parse sd text = Ok (bs, rest) /\ ~ ws rest /\ Enc (JInt 1) bs.
Proof.
  exists (bytes_of "1 ] }"%string). eexists. eexists. split; [vm_compute; reflexivity|]. split; [intros W; inversion W as [|? ? _ W2]; inversion W2 as [|? ? W3 _]; subst; cbn in W3; lia|].
  apply (te_cons (TInt 1) [] [6] []); [reflexivity|constructor].
Qed.
Print Assumptions C66_garbage_refuted.
Example C66_nonvacuous : jdoc false false (JArr [JInt 10; JObj [([195; 169], JStr [10])]]) (bytes_of "[ 10, {"""%string ++ [195; 169] ++ bytes_of """:""\n""} ]"%string).
Proof.
  exists [], (bytes_of "[ 10, {"""%string ++ [195; 169] ++ bytes_of """:""\n""} ]"%string), []. split; [constructor|]. split; [constructor|]. split; [|reflexivity].
  assert (W32 : ws [32]) by repeat constructor.
  apply (jt_arr false false [JInt 10; JObj [([195; 169], JStr [10])]] (bytes_of " 10, {"""%string ++ [195; 169] ++ bytes_of """:""\n""} "%string)).
  apply (ji_more false false (JInt 10) [32] [49; 48] [] [JObj [([195; 169], JStr [10])]] (bytes_of " {"""%string ++ [195; 169] ++ bytes_of """:""\n""} "%string)); [exact W32|constructor| |].
  { apply jt_int. exists false, [49; 48]. split; [reflexivity|]. split; [reflexivity|]. split; [right; eexists; eexists; split; [reflexivity|lia]|reflexivity]. }
  apply (ji_one false false _ [32] (bytes_of "{"""%string ++ [195; 169] ++ bytes_of """:""\n""}"%string) [32]); [exact W32|exact W32|].
  apply (jt_obj false false _ (bytes_of """"%string ++ [195; 169] ++ bytes_of """:""\n"""%string)).
  apply (jf_one false false [195; 169] [195; 169] (JStr [10]) [] [] [] (bytes_of """\n"""%string) []); try constructor.
  - apply (js_char false false 233 [] []); [unfold plain, scalar; lia|constructor].
  - apply (jt_str false false [10] [92; 110]). apply (js_esc false false 110 10 [] []); [cbn; tauto|constructor].
Qed.
